(** The constants of any enum: which value keeps which name. *)
From Verif Require Import Prelude Strings Version Util GenName GenNameProofs.
Local Open Scope string_scope.
Local Open Scope list_scope.

(** The name of every value: the given one as far as there are any. *)
Definition names_of (ns vs : list string) : list string :=
  firstn (length vs) ns ++ skipn (length ns) vs.

(** The values whose name is new at their place. *)
Definition first_named (names vs : list string) : list (string * string) :=
  map (fun i => (nth i names "", nth i vs ""))
    (filter (fun i => if in_dec string_dec (nth i names "") (firstn i names) then false else true)
       (seq 0 (length vs))).

(** The last writer of a key. *)
Definition last_writes (ps : list (string * string)) (k v : string) : Prop :=
  exists a b, ps = a ++ (k, v) :: b /\ ~ In k (map fst b).

Lemma put_keys {A} k (v : A) m : NoDup (map fst m) -> NoDup (map fst (put k v m)).
Proof.
  induction m as [|[k' w] r IH]; intros N; cbn; [constructor; [intros []|constructor]|].
  cbn in N. inversion N as [|? ? N1 N2]; subst. destruct (String.eqb_spec k k') as [->|D]; cbn; [exact N|].
  constructor; [|apply IH, N2]. intros I. apply in_map_iff in I. destruct I as [[a b] [E I]]. cbn in E. subst a.
  apply put_in in I. destruct I as [I|I]; [congruence|]. apply N1. apply in_map_iff. exists (k', b). split; auto.
Qed.

Lemma put_iff k v (m : list (string * string)) x y : NoDup (map fst m) ->
  (In (x, y) (put k v m) <-> (x = k /\ y = v) \/ (x <> k /\ In (x, y) m)).
Proof.
  induction m as [|[k' w] r IH]; intros N; cbn.
  - split; [intros [H|[]]; injection H as <- <-; tauto|]. intros [[-> ->]|[_ []]]. left. reflexivity.
  - cbn in N. inversion N as [|? ? N1 N2]; subst. destruct (String.eqb_spec k k') as [->|D]; cbn.
    + split.
      * intros [H|H]; [injection H as <- <-; tauto|]. right. split; [|right; exact H].
        intros ->. apply N1. apply (in_map fst) in H. exact H.
      * intros [[-> ->]|[H1 [H2|H2]]]; [left; reflexivity|congruence|right; exact H2].
    + rewrite (IH N2). split.
      * intros [H|[H|[H1 H2]]]; [injection H as <- <-; right; split; [congruence|left; reflexivity]|tauto|tauto].
      * intros [H|[H1 [H2|H2]]]; [tauto|left; exact H2|tauto].
Qed.

Lemma last_cons k v ps x y : last_writes ((k, v) :: ps) x y <->
  last_writes ps x y \/ (x = k /\ y = v /\ ~ In x (map fst ps)).
Proof.
  split.
  - intros [[|[k' v'] a] [b [E N]]].
    + injection E as -> -> ->. tauto.
    + injection E as <- <- ->. left. exists a, b. tauto.
  - intros [[a [b [-> N]]]|[-> [-> N]]]; [exists ((k, v) :: a), b; tauto|exists [], ps; tauto].
Qed.

Lemma last_key ps x y : last_writes ps x y -> In x (map fst ps).
Proof. intros [a [b [-> _]]]. rewrite map_app. apply in_or_app. right. left. reflexivity. Qed.

Section Enum.
Variable u : unicode.

Lemma loop_exact l : forall cnt m seen, counts cnt seen -> NoDup (map fst m) ->
  exists m' gs, sanitize_loop u cnt m l = Ok m'
    /\ Forall2 (fun p g => sanitizeGoIdentity u (schemaNameToTypeName u (fst p)) = Ok g) l gs
    /\ NoDup (map fst m')
    /\ forall k v, In (k, v) m' <->
         last_writes (combine (numbered seen gs) (map snd l)) k v
         \/ (In (k, v) m /\ ~ In k (map fst (combine (numbered seen gs) (map snd l)))).
Proof.
  induction l as [|[n w] l IH]; intros cnt m seen C N.
  - exists m, []. split; [reflexivity|]. split; [constructor|]. split; [exact N|]. intros k v. cbn. split.
    + intros H. right. split; [exact H|intros []].
    + intros [H|[H _]]; [|exact H]. apply last_key in H. destruct H.
  - destruct (sanitize_total u (schemaNameToTypeName u n)) as [s Es].
    set (key := (s ++ match count_occ string_dec seen s with O => "" | S c => itoa (S c) end)%string).
    set (cnt' := put s (S (count_occ string_dec seen s)) cnt).
    assert (C' : counts cnt' (s :: seen)).
    { intros x. cbn [count_occ]. unfold cnt'. destruct (string_dec s x) as [<-|D].
      - apply lookup_put_same.
      - rewrite lookup_put_other by exact D. apply C. }
    assert (R : sanitize_loop u cnt m ((n, w) :: l) = sanitize_loop u cnt' (put key w m) l).
    { cbn [sanitize_loop]. rewrite Es. cbn [bind]. rewrite C. unfold cnt', key.
      destruct (count_occ string_dec seen s); [rewrite str_app_nil|]; reflexivity. }
    destruct (IH cnt' (put key w m) (s :: seen) C' (put_keys _ _ _ N)) as [m' [gs [E1 [E2 [E3 E4]]]]].
    exists m', (s :: gs). rewrite R. split; [exact E1|]. split; [constructor; [exact Es|exact E2]|].
    split; [exact E3|]. intros k v. rewrite E4. cbn [numbered map combine snd fst]. fold key.
    rewrite last_cons, (put_iff _ _ _ _ _ N). cbn [In].
    set (ps := combine (numbered (s :: seen) gs) (map snd l)). clearbody ps key. clear.
    split.
    + intros [H|[[[-> ->]|[D H]] H2]]; [tauto|tauto|]. right. split; [exact H|]. intros [E|E]; [congruence|tauto].
    + intros [[H|[-> [-> H]]]|[H D]]; [tauto|right; split; [left; tauto|exact H]|].
      right. split; [right; split; [|exact H]|]; [intros ->; tauto|tauto].
Qed.

Lemma seen_agree (a b : list string) x : (forall y, In y a <-> In y b) ->
  existsb (String.eqb x) a = if in_dec string_dec x b then true else false.
Proof.
  intros H. destruct (in_dec string_dec x b) as [I|I].
  - apply existsb_exists. exists x. split; [apply H, I|apply String.eqb_refl].
  - apply not_true_is_false. intros E. apply existsb_exists in E. destruct E as [y [E1 E2]].
    apply String.eqb_eq in E2. subst y. apply I, H, E1.
Qed.

Lemma names_cons ns v vs : names_of ns (v :: vs) =
  (match ns with n :: _ => n | [] => v end) :: names_of (tl ns) vs.
Proof.
  unfold names_of. destruct ns as [|n ns]; cbn [length firstn skipn tl app].
  - rewrite firstn_nil. reflexivity.
  - reflexivity.
Qed.

Lemma dedup_first vs : forall ns pre vpre seen, length vpre = length pre -> (forall y, In y seen <-> In y pre) ->
  dedup seen ns vs =
  map (fun i => (nth i (pre ++ names_of ns vs) "", nth i (vpre ++ vs) ""))
    (filter (fun i => if in_dec string_dec (nth i (pre ++ names_of ns vs) "") (firstn i (pre ++ names_of ns vs))
                      then false else true)
       (seq (length pre) (length vs))).
Proof.
  induction vs as [|v vs IH]; intros ns pre vpre seen L S; [reflexivity|].
  cbn [dedup length seq filter]. rewrite names_cons.
  set (n := match ns with n :: _ => n | [] => v end).
  rewrite (IH (tl ns) (pre ++ [n]) (vpre ++ [v]) (n :: seen)).
  - rewrite <- !app_assoc. cbn [app]. rewrite app_length. cbn [length]. rewrite Nat.add_1_r.
    rewrite nth_middle. rewrite firstn_app, firstn_all, Nat.sub_diag. cbn [firstn]. rewrite app_nil_r.
    rewrite (seen_agree seen pre n S). destruct (in_dec string_dec n pre); [reflexivity|].
    cbn [map app]. rewrite nth_middle. rewrite <- L, nth_middle. reflexivity.
  - rewrite !app_length, L. reflexivity.
  - intros y. rewrite in_app_iff. cbn [In]. rewrite S. tauto.
Qed.

Lemma enum_exact ns vs : exists m gs,
  sanitizeEnumNames u ns vs = Ok m
  /\ Forall2 (fun p g => sanitizeGoIdentity u (schemaNameToTypeName u (fst p)) = Ok g)
       (first_named (names_of ns vs) vs) gs
  /\ NoDup (map fst m)
  /\ forall k v, In (k, v) m <->
       last_writes (combine (numbered [] gs) (map snd (first_named (names_of ns vs) vs))) k v.
Proof.
  unfold sanitizeEnumNames. rewrite (dedup_first vs ns [] [] []); [|reflexivity|tauto]. cbn [app length].
  fold (first_named (names_of ns vs) vs).
  destruct (loop_exact (first_named (names_of ns vs) vs) [] [] []) as [m [gs [E1 [E2 [E3 E4]]]]];
    [intros s; reflexivity|constructor|].
  exists m, gs. split; [exact E1|]. split; [exact E2|]. split; [exact E3|]. intros k v. rewrite E4. cbn [In].
  tauto.
Qed.

Lemma exact_case : first_named (names_of ["x"; "x"] ["p"; "q"; "r"; "x"]) ["p"; "q"; "r"; "x"] = [("x", "p"); ("r", "r")]
  /\ numbered [] ["A"; "A"; "A1"] = ["A"; "A1"; "A1"]
  /\ last_writes (combine (numbered [] ["A"; "A"; "A1"]) ["a"; "A"; "a1"]) "A1" "a1"
  /\ ~ last_writes (combine (numbered [] ["A"; "A"; "A1"]) ["a"; "A"; "a1"]) "A1" "A".
Proof.
  split; [vm_compute; reflexivity|]. split; [vm_compute; reflexivity|]. 
  change (numbered [] ["A"; "A"; "A1"]) with ["A"; "A1"; "A1"]. cbn [combine].
  split; [exists [("A", "a"); ("A1", "A")], []; split; [reflexivity|intros []]|].
  rewrite !last_cons. intros [[[H|[_ [H _]]]|[_ [_ H]]]|[H _]]; try discriminate.
  - apply last_key in H. exact H.
  - apply H. left. reflexivity.
Qed.
End Enum.
