(** Proofs about CueAst.v. *)
From Verif Require Import Prelude Version Rewrite CueAst.
Local Open Scope string_scope.
Local Open Scope list_scope.

Section Ind.
Variable P : node -> Prop.
Hypothesis H : forall i k cs, Forall P cs -> P (Node i k cs).
Fixpoint node_ind' (n : node) : P n :=
  match n with
  | Node i k cs => H i k cs ((fix go (l : list node) : Forall P l :=
      match l with [] => Forall_nil _ | c :: r => Forall_cons _ (node_ind' c) (go r) end) cs)
  end.
End Ind.

(** *** Contexts: a tree with a place for a list of nodes *)

Inductive frame := Fr (id : N) (k : kind) (before after : list node).
Fixpoint plug (c : list frame) (hole : list node) : list node :=
  match c with
  | [] => hole
  | Fr i k b a :: r => [Node i k (b ++ plug r hole ++ a)]
  end.

Lemma plug_app c1 c2 h : plug (c1 ++ c2) h = plug c1 (plug c2 h).
Proof. induction c1 as [|[i k b a] r IH]; cbn; [reflexivity|]. now rewrite IH. Qed.

Lemma ids_plug_in c h x : In x (flat_map ids h) -> In x (flat_map ids (plug c h)).
Proof.
  intros Hx. induction c as [|[i k b a] r IH]; cbn; [exact Hx|].
  right. rewrite app_nil_r, !flat_map_app, !in_app_iff. auto.
Qed.

Lemma NoDup_app {A} (l r : list A) :
  NoDup (l ++ r) -> NoDup l /\ NoDup r /\ (forall x, In x l -> In x r -> False).
Proof.
  induction l as [|y l IH]; cbn; intros N.
  - split; [constructor|]. split; [exact N|]. intros x [].
  - inversion N as [|? ? Hy N' E]; subst. destruct (IH N') as (A1 & A2 & A3).
    rewrite in_app_iff in Hy. split; [constructor; tauto|]. split; [exact A2|].
    intros x [->|Hx] Hr; [tauto | eauto].
Qed.

Lemma at_id_absent i g n : ~ In i (ids n) -> at_id i g n = n.
Proof.
  induction n as [j k cs IH] using node_ind'. cbn. intros N.
  destruct (N.eqb_spec j i) as [E|E]; [exfalso; auto|]. f_equal.
  assert (N' : ~ In i (flat_map ids cs)) by tauto. clear N E.
  induction IH as [|c r Hc _ IH']; cbn; [reflexivity|].
  cbn in N'. rewrite in_app_iff in N'. rewrite Hc by tauto. now rewrite IH' by tauto.
Qed.

Lemma map_at_id_absent i g l : ~ In i (flat_map ids l) -> map (at_id i g) l = l.
Proof.
  induction l as [|c r IH]; cbn; [reflexivity|]. rewrite in_app_iff. intros N.
  rewrite at_id_absent by tauto. now rewrite IH by tauto.
Qed.

Lemma node_id_in n : In (node_id n) (ids n).
Proof. destruct n; cbn; auto. Qed.

Lemma map_at_id_plug g c m :
  NoDup (flat_map ids (plug c [m])) -> map (at_id (node_id m) g) (plug c [m]) = plug c [g m].
Proof.
  induction c as [|[i k b a] r IH]; intros N.
  - cbn. destruct m as [j k cs]. cbn. now rewrite N.eqb_refl.
  - cbn in N. rewrite app_nil_r in N. inversion N as [|? ? Hi N' E]; subst.
    rewrite !flat_map_app in N', Hi. destruct (NoDup_app _ _ N') as (_ & N2 & D1).
    destruct (NoDup_app _ _ N2) as (N3 & _ & D2).
    assert (M : In (node_id m) (flat_map ids (plug r [m]))).
    { apply ids_plug_in. cbn. rewrite app_nil_r. apply node_id_in. }
    cbn. destruct (N.eqb_spec i (node_id m)) as [E|E].
    + exfalso. apply Hi. rewrite !in_app_iff. subst i. auto.
    + f_equal. f_equal. rewrite !map_app, IH by exact N3.
      rewrite !map_at_id_absent; [reflexivity| |].
      * intros X. eapply D2; eauto.
      * intros X. eapply D1; [exact X|]. rewrite in_app_iff. auto.
Qed.

Lemma at_id_plug g c m lin :
  NoDup (ids lin) -> [lin] = plug c [m] -> [at_id (node_id m) g lin] = plug c [g m].
Proof.
  intros N E. rewrite <- (map_at_id_plug g c m).
  - rewrite <- E. reflexivity.
  - rewrite <- E. cbn. now rewrite app_nil_r.
Qed.

(** *** Nodes in the order of [ast.Walk] *)

Fixpoint preorder (n : node) : list node :=
  let 'Node _ _ cs := n in n :: flat_map preorder cs.

Definition opt_list {A} (o : option A) : list A := match o with Some a => [a] | None => [] end.

(** The lists of the fields labelled seqs, in this order. *)
Definition all_seqs (n : node) : list node := flat_map (fun m => opt_list (seqs_value m)) (preorder n).

(** The search through children. *)
Fixpoint first_seqs (l : list node) : option node :=
  match l with
  | [] => None
  | c :: r => match findSeqs c with Some x => Some x | None => first_seqs r end
  end.
Lemma findSeqs_eq i k cs :
  findSeqs (Node i k cs) =
  match seqs_value (Node i k cs) with Some l => Some l | None => first_seqs cs end.
Proof.
  cbn [findSeqs]. destruct (seqs_value (Node i k cs)); [reflexivity|].
  induction cs as [|c r IH]; cbn; [reflexivity|]. destruct (findSeqs c); auto.
Qed.

Lemma hd_error_app {A} (l r : list A) :
  hd_error (l ++ r) = match hd_error l with Some a => Some a | None => hd_error r end.
Proof. destruct l; reflexivity. Qed.

Lemma findSeqs_first n : findSeqs n = hd_error (all_seqs n).
Proof.
  induction n as [i k cs IH] using node_ind'. rewrite findSeqs_eq. unfold all_seqs.
  cbn [preorder flat_map].
  rewrite hd_error_app. destruct (seqs_value (Node i k cs)) as [l|]; [reflexivity|]. cbn [opt_list hd_error].
  induction IH as [|c r Hc _ IH']; cbn; [reflexivity|].
  rewrite flat_map_app, hd_error_app, Hc. unfold all_seqs. destruct (hd_error _); auto.
Qed.

(** *** The place of the list found *)

Lemma seqs_value_inv n l : seqs_value n = Some l ->
  exists i lb cs j es, n = Node i (KField lb) (l :: cs) /\ label_eq lb "seqs" = true /\ l = Node j KList es.
Proof.
  unfold seqs_value, field_value. destruct n as [i k cs]. cbn.
  destruct k as [| lb | | | | | | | |]; try discriminate.
  destruct (label_eq lb "seqs") eqn:E; [|discriminate].
  destruct cs as [|[j k es] r]; cbn; [discriminate|].
  destruct k; try discriminate. cbn. intros [= <-]. exists i, lb, r, j, es. auto.
Qed.

Lemma first_seqs_plug cs l : first_seqs cs = Some l ->
  exists b x a, cs = b ++ x :: a /\ first_seqs b = None /\ findSeqs x = Some l.
Proof.
  induction cs as [|c r IH]; cbn; [discriminate|].
  destruct (findSeqs c) as [y|] eqn:E.
  - intros [= ->]. exists [], c, r. auto.
  - intros H. destruct (IH H) as (b & x & a & -> & Hb & Hx).
    exists (c :: b), x, a. cbn. rewrite E. auto.
Qed.
Lemma first_seqs_mid b x a l : first_seqs b = None -> findSeqs x = Some l -> first_seqs (b ++ x :: a) = Some l.
Proof.
  induction b as [|c r IH]; cbn; intros Hb Hx; [now rewrite Hx|].
  destruct (findSeqs c); [discriminate|]. auto.
Qed.

(** The list can be put back changed, and is found again. *)
Definition list_place (c : list frame) (n l : node) : Prop :=
  [n] = plug c [l] /\ is_list l = true /\
  forall l', is_list l' = true -> exists n', [n'] = plug c [l'] /\ findSeqs n' = Some l'.

Lemma findSeqs_place n : forall l, findSeqs n = Some l -> exists c, list_place c n l.
Proof.
  induction n as [i k cs IH] using node_ind'. intros l. rewrite findSeqs_eq.
  destruct (seqs_value (Node i k cs)) as [l0|] eqn:E.
  - intros [= ->]. destruct (seqs_value_inv _ _ E) as (i' & lb & r & j & es & X & L & ->).
    injection X as -> -> ->. exists [Fr i' (KField lb) [] r]. split; [reflexivity|]. split; [reflexivity|].
    intros l' Hl. exists (Node i' (KField lb) (l' :: r)). split; [reflexivity|].
    rewrite findSeqs_eq. unfold seqs_value. cbn. now rewrite L, Hl.
  - intros H. destruct (first_seqs_plug _ _ H) as (b & x & a & -> & Hb & Hx).
    rewrite Forall_app in IH. destruct IH as [_ IH]. inversion IH as [|? ? Hxx _]; subst.
    destruct (Hxx _ Hx) as (c & P1 & P2 & P3).
    exists (Fr i k b a :: c). split; [cbn; now rewrite <- P1|]. split; [exact P2|].
    intros l' Hl. destruct (P3 l' Hl) as (n' & E1 & E2).
    exists (Node i k (b ++ n' :: a)). split; [cbn; now rewrite <- E1|].
    rewrite findSeqs_eq.
    replace (seqs_value (Node i k (b ++ n' :: a))) with (@None node).
    + now apply first_seqs_mid.
    + symmetry. unfold seqs_value in *. cbn in *. destruct k as [| lb | | | | | | | |]; try reflexivity.
      destruct (label_eq lb "seqs"); [|reflexivity].
      destruct b as [|b0 br]; cbn in *.
      * destruct (is_list x) eqn:Lx; [discriminate|].
        destruct c as [|[i2 k2 b2 a2] cr]; cbn in P1, E1.
        -- injection P1 as ->. congruence.
        -- injection P1 as ->. injection E1 as ->. cbn in *. now rewrite Lx.
      * destruct (is_list b0); [discriminate|reflexivity].
Qed.

(** *** Lineages in the old form *)

(** The schemas of a sequence: a struct (or file) whose first field labelled
    schemas is a list of them. *)
Definition seq_has (q : node) (ss : list node) : Prop :=
  exists i k b fi lb li rest a,
    (k = KStruct \/ exists fn, k = KFile fn) /\
    q = Node i k (b ++ Node fi (KField lb) (Node li KList ss :: rest) :: a) /\
    label_eq lb "schemas" = true /\ Forall (fun c => isFieldWithLabel c "schemas" = false) b.

(** The schemas of a lineage by sequence: the first list labelled seqs. *)
Definition table (lin : node) (ss : list (list node)) : Prop :=
  exists l, hd_error (all_seqs lin) = Some l /\ Forall2 seq_has (children l) ss.

(** One list of the tree has other elements; the rest is the same. *)
Definition list_changed (lin lin' : node) (es es' : list node) : Prop :=
  exists c i, [lin] = plug c [Node i KList es] /\ [lin'] = plug c [Node i KList es'].

Lemma find_mid {A} (f : A -> bool) b x a :
  Forall (fun c => f c = false) b -> f x = true -> find f (b ++ x :: a) = Some x.
Proof. intros Hb Hx. induction Hb as [|y b E _ IH]; cbn; [now rewrite Hx|]. now rewrite E. Qed.

Lemma listForField_seq i k b fi lb li rest a ss :
  (k = KStruct \/ exists fn, k = KFile fn) -> label_eq lb "schemas" = true ->
  Forall (fun c => isFieldWithLabel c "schemas" = false) b ->
  listForField (Node i k (b ++ Node fi (KField lb) (Node li KList ss :: rest) :: a)) "schemas"
  = Ok (Node li KList ss).
Proof.
  intros K L B. unfold listForField, getFieldByLabel. cbn [node_kind children].
  rewrite (find_mid (fun c => isFieldWithLabel c "schemas")); [|exact B|exact L].
  destruct K as [->|[fn ->]]; reflexivity.
Qed.

Lemma Forall2_length {A B} (R : A -> B -> Prop) l1 l2 : Forall2 R l1 l2 -> length l1 = length l2.
Proof. induction 1; cbn; auto. Qed.
Lemma Forall2_split {A B} (R : A -> B -> Prop) l1 l2 y k :
  Forall2 R l1 l2 -> nth_error l2 k = Some y ->
  exists b x a b2 a2, l1 = b ++ x :: a /\ l2 = b2 ++ y :: a2 /\ length b = k /\ length b2 = k /\ R x y /\
    Forall2 R b b2 /\ Forall2 R a a2.
Proof.
  intros F. revert k. induction F as [|x y' l1 l2 Hxy F IH]; intros k E.
  - destruct k; discriminate.
  - destruct k as [|k]; cbn in E.
    + injection E as ->. exists [], x, l1, [], l2. repeat split; auto.
    + destruct (IH _ E) as (b & x0 & a & b2 & a2 & -> & -> & L1 & L2 & R1 & F1 & F2).
      exists (x :: b), x0, a, (y' :: b2), a2. cbn. repeat split; auto.
Qed.

Lemma nth_error_len {A} (b : list A) x a : nth_error (b ++ x :: a) (length b) = Some x.
Proof. induction b; cbn; auto. Qed.

Lemma is_list_inv l : is_list l = true -> exists i es, l = Node i KList es.
Proof. destruct l as [i k es]. destruct k; try discriminate. eauto. Qed.

(** Changing the list of one sequence. *)
Lemma seq_edit lin ss k s (g : node -> node) (s' : list node) :
  NoDup (ids lin) -> table lin ss -> nth_error ss k = Some s ->
  exists l sl, findSeqs lin = Some l /\ length (elts l) = length ss /\
    (exists q, nth_error (elts l) k = Some q /\ listForField q "schemas" = Ok sl) /\
    children sl = s /\
    ((forall i, g (Node i KList s) = Node i KList s') ->
      list_changed lin (at_id (node_id sl) g lin) s s' /\
      exists b a, ss = b ++ s :: a /\ length b = k /\ table (at_id (node_id sl) g lin) (b ++ s' :: a)).
Proof.
  intros N (l & Hl & F) E.
  rewrite <- findSeqs_first in Hl. destruct (findSeqs_place _ _ Hl) as (c & P1 & P2 & P3).
  destruct (is_list_inv _ P2) as (i & es & ->). cbn [children] in F.
  destruct (Forall2_split _ _ _ _ _ F E) as (b & q & a & b2 & a2 & -> & -> & L1 & L2 & Hq & F1 & F2).
  destruct Hq as (qi & qk & qb & fi & lb & li & rest & qa & K & -> & L & B).
  exists (Node i KList (b ++ Node qi qk (qb ++ Node fi (KField lb) (Node li KList s :: rest) :: qa) :: a)), (Node li KList s).
  split; [exact Hl|]. split. { cbn. rewrite !app_length. cbn. apply Forall2_length in F1, F2. lia. }
  split. { exists (Node qi qk (qb ++ Node fi (KField lb) (Node li KList s :: rest) :: qa)). split.
    - cbn. rewrite <- L1. apply nth_error_len.
    - now apply listForField_seq. }
  split; [reflexivity|]. intros G.
  set (c2 := c ++ [Fr i KList b a; Fr qi qk qb qa; Fr fi (KField lb) [] rest]).
  assert (P : [lin] = plug c2 [Node li KList s]) by (unfold c2; rewrite plug_app; exact P1).
  pose proof (at_id_plug g c2 _ lin N P) as Q. rewrite G in Q.
  split. { exists c2, li. split; [exact P | exact Q]. }
  exists b2, a2. split; [reflexivity|]. split; [exact L2|].
  unfold c2 in Q. rewrite plug_app in Q. cbn [plug] in Q. cbn [app] in Q.
  destruct (P3 _ (eq_refl : is_list (Node i KList (b ++ [Node qi qk (qb ++ [Node fi (KField lb) (Node li KList s' :: rest)] ++ qa)] ++ a)) = true)) as (n' & E1 & E2).
  cbn [app] in E1. rewrite <- Q in E1. injection E1 as ->.
  eexists. split; [rewrite <- findSeqs_first; exact E2|]. cbn [children app].
  apply Forall2_app; [exact F1|]. constructor; [|exact F2].
  exists qi, qk, qb, fi, lb, li, rest, qa. auto.
Qed.

Lemma set_nth_mid b x y a : set_nth (length b) y (b ++ x :: a) = b ++ y :: a.
Proof. induction b as [|z b IH]; cbn; [reflexivity|]. now rewrite IH. Qed.

Lemma new_sequence lin ss x :
  NoDup (ids lin) -> table lin ss ->
  exists l, findSeqs lin = Some l /\ length (elts l) = length ss /\
    let lin' := at_id (node_id l) (append_elt (newSequenceNode (Some x))) lin in
    table lin' (ss ++ [[x]]) /\
    list_changed lin lin' (elts l) (elts l ++ [newSequenceNode (Some x)]).
Proof.
  intros N (l & Hl & F). rewrite <- findSeqs_first in Hl.
  destruct (findSeqs_place _ _ Hl) as (c & P1 & P2 & P3).
  destruct (is_list_inv _ P2) as (i & es & ->). cbn [children] in F.
  exists (Node i KList es). split; [exact Hl|]. split. { cbn. now apply Forall2_length in F. }
  pose proof (at_id_plug (append_elt (newSequenceNode (Some x))) c _ lin N P1) as Q.
  cbn zeta. cbn [elts children] in *. cbn [append_elt] in Q. split.
  - destruct (P3 _ (eq_refl : is_list (Node i KList (es ++ [newSequenceNode (Some x)])) = true)) as (n' & E1 & E2).
    rewrite <- Q in E1. injection E1 as ->.
    eexists. split; [rewrite <- findSeqs_first; exact E2|]. cbn [children].
    apply Forall2_app; [exact F|]. constructor; [|constructor].
    exists 0%N, KStruct, [], 0%N, (LString "schemas"), 0%N, [], []. repeat split; auto.
  - exists c, i. auto.
Qed.

(** *** C91 *)

Lemma insert_new_sequence lin ss sch v :
  NoDup (ids lin) -> table lin ss -> fst v = N.of_nat (length ss) ->
  exists lin', insertSchemaNodeAs lin sch v = Ok lin' /\ table lin' (ss ++ [[commented v sch]]) /\
    exists es q, list_changed lin lin' es (es ++ [q]).
Proof.
  intros N T V. destruct (new_sequence _ _ (commented v sch) N T) as (l & E & L & Q & C).
  unfold insertSchemaNodeAs. rewrite E, L, V, N.eqb_refl. eexists. split; [reflexivity|].
  split; [exact Q|]. eauto.
Qed.

Lemma schemaListFor_at lin l m k q sl :
  findSeqs lin = Some l -> length (elts l) = m -> (k < m)%nat ->
  nth_error (elts l) k = Some q -> listForField q "schemas" = Ok sl ->
  schemaListFor lin (N.of_nat k) = Ok sl.
Proof.
  intros E L K Eq Es. unfold schemaListFor. rewrite E, L.
  destruct (N.leb_spec (N.of_nat m) (N.of_nat k)); [lia|].
  unfold index. rewrite Nnat.Nat2N.id, Eq. exact Es.
Qed.

Lemma insert_existing lin ss s sch v :
  NoDup (ids lin) -> table lin ss -> nth_error ss (N.to_nat (fst v)) = Some s ->
  (snd v <= N.of_nat (length s))%N ->
  exists lin' b a, insertSchemaNodeAs lin sch v = Ok lin' /\
    ss = b ++ s :: a /\ length b = N.to_nat (fst v) /\
    let s' := firstn (N.to_nat (snd v)) s ++ commented v sch :: skipn (S (N.to_nat (snd v))) s in
    table lin' (b ++ s' :: a) /\ list_changed lin lin' s s'.
Proof.
  intros N T E V.
  assert (K : (N.to_nat (fst v) < length ss)%nat) by (apply nth_error_Some; congruence).
  destruct (N.eqb_spec (snd v) (N.of_nat (length s))) as [Ev|Ev].
  - destruct (seq_edit lin ss _ s (append_elt (commented v sch)) (s ++ [commented v sch]) N T E)
      as (l & sl & El & L & (q & Eq & Es) & Ec & G).
    destruct (G (fun _ => eq_refl)) as (C & b & a & S1 & S2 & T').
    exists (at_id (node_id sl) (append_elt (commented v sch)) lin), b, a.
    split; [|split; [exact S1|split; [exact S2|]]].
    + unfold insertSchemaNodeAs. rewrite El, L.
      destruct (N.eqb_spec (fst v) (N.of_nat (length ss))); [lia|].
      rewrite <- (Nnat.N2Nat.id (fst v)) at 1.
      rewrite (schemaListFor_at _ _ _ _ _ _ El L K Eq Es). cbn [bind]. unfold elts. rewrite Ec.
      destruct (N.ltb_spec (N.of_nat (length s)) (snd v)); [lia|]. rewrite Ev, N.eqb_refl. reflexivity.
    + cbn zeta. rewrite Ev, Nnat.Nat2N.id, firstn_all, skipn_all2 by lia. auto.
  - assert (Hk : (N.to_nat (snd v) < length s)%nat) by lia.
    destruct (nth_error s (N.to_nat (snd v))) as [o|] eqn:Eo; [|apply nth_error_None in Eo; lia].
    destruct (nth_error_split _ _ Eo) as (sb & sa & -> & Lb).
    destruct (seq_edit lin ss _ (sb ++ o :: sa) (set_elt (N.to_nat (snd v)) (commented v sch)) (sb ++ commented v sch :: sa) N T E)
      as (l & sl & El & L & (q & Eq & Es) & Ec & G).
    destruct G as (C & b & a & S1 & S2 & T').
    { intros i. cbn [set_elt]. rewrite <- Lb, set_nth_mid. reflexivity. }
    exists (at_id (node_id sl) (set_elt (N.to_nat (snd v)) (commented v sch)) lin), b, a.
    split; [|split; [exact S1|split; [exact S2|]]].
    + unfold insertSchemaNodeAs. rewrite El, L.
      destruct (N.eqb_spec (fst v) (N.of_nat (length ss))); [lia|].
      rewrite <- (Nnat.N2Nat.id (fst v)) at 1.
      rewrite (schemaListFor_at _ _ _ _ _ _ El L K Eq Es). cbn [bind]. unfold elts. rewrite Ec.
      destruct (N.ltb_spec (N.of_nat (length (sb ++ o :: sa))) (snd v)); [lia|].
      destruct (N.eqb_spec (snd v) (N.of_nat (length (sb ++ o :: sa)))); [contradiction|]. reflexivity.
    + cbn zeta.
      replace (firstn (N.to_nat (snd v)) (sb ++ o :: sa)) with sb
        by (rewrite <- Lb, firstn_app, Nat.sub_diag, firstn_all; cbn [firstn]; now rewrite app_nil_r).
      replace (skipn (S (N.to_nat (snd v))) (sb ++ o :: sa)) with sa
        by (rewrite <- Lb; clear; induction sb as [|z sb IH]; [reflexivity|]; cbn [app length skipn]; exact IH).
      auto.
Qed.

Lemma insert_errors lin ss sch v :
  NoDup (ids lin) -> table lin ss ->
  ((N.of_nat (length ss) < fst v)%N ->
     insertSchemaNodeAs lin sch v = Err (new_err ("major version " ++ show_N (fst v) ++ " not present in lineage"))) /\
  (forall s, nth_error ss (N.to_nat (fst v)) = Some s -> (N.of_nat (length s) < snd v)%N ->
     insertSchemaNodeAs lin sch v =
     Err (new_err ("cannot insert version " ++ vstring v ++ ", previous version does not exist in lineage"))).
Proof.
  intros N T. split.
  - intros V. destruct T as (l & Hl & F). rewrite <- findSeqs_first in Hl.
    apply Forall2_length in F. unfold insertSchemaNodeAs, schemaListFor, elts. rewrite Hl, F.
    destruct (N.eqb_spec (fst v) (N.of_nat (length ss))); [lia|].
    destruct (N.leb_spec (N.of_nat (length ss)) (fst v)); [reflexivity|lia].
  - intros s E V.
    assert (K : (N.to_nat (fst v) < length ss)%nat) by (apply nth_error_Some; congruence).
    destruct (seq_edit lin ss _ s (fun x => x) s N T E) as (l & sl & El & L & (q & Eq & Es) & Ec & _).
    unfold insertSchemaNodeAs. rewrite El, L.
    destruct (N.eqb_spec (fst v) (N.of_nat (length ss))); [lia|].
    rewrite <- (Nnat.N2Nat.id (fst v)) at 1.
    rewrite (schemaListFor_at _ _ _ _ _ _ El L K Eq Es). cbn [bind]. unfold elts. rewrite Ec.
    destruct (N.ltb_spec (N.of_nat (length s)) (snd v)); [reflexivity|lia].
Qed.

Lemma insert_no_list lin sch v : all_seqs lin = [] ->
  insertSchemaNodeAs lin sch v = Err (new_err "could not find seqs list in input - invalid lineage ast?").
Proof. intros E. unfold insertSchemaNodeAs. now rewrite findSeqs_first, E. Qed.

(** Appending. *)
Lemma append_compatible lin b s sch :
  NoDup (ids lin) -> table lin (b ++ [s]) -> s <> [] ->
  let lv := (N.of_nat (length b), N.of_nat (length s - 1)) in
  let new := commented (N.of_nat (length b), N.of_nat (length s)) sch in
  exists lin', appendlin lin sch lv true = Ok lin' /\ table lin' (b ++ [s ++ [new]]) /\
    list_changed lin lin' s (s ++ [new]).
Proof.
  intros N T NE lv new.
  destruct (seq_edit lin (b ++ [s]) (length b) s (append_elt new) (s ++ [new]) N T (nth_error_len b s []))
      as (l & sl & El & L & (q & Eq & Es) & Ec & G).
  destruct (G (fun _ => eq_refl)) as (C & b' & a & S1 & S2 & T').
  exists (at_id (node_id sl) (append_elt new) lin). split; [|split; [|exact C]].
  - unfold appendlin, latestSchemaList. rewrite El, L. rewrite app_length. cbn [length].
    unfold indexZ. destruct (Z.ltb_spec (Z.of_nat (length b + 1) - 1) 0); [lia|].
    replace (Z.to_nat (Z.of_nat (length b + 1) - 1)) with (length b) by lia.
    unfold index. rewrite Eq. cbn [bind]. rewrite Es. unfold new, lv. cbn [fst snd].
    do 5 f_equal. destruct s; [congruence|]. cbn [length]. f_equal. lia.
  - assert (X : b' = b /\ a = []).
    { assert (Y : firstn (length b) (b ++ [s]) = firstn (length b) (b' ++ s :: a)) by now rewrite S1.
      rewrite <- S2 in Y at 2. rewrite !firstn_app, !Nat.sub_diag, !firstn_all in Y. cbn in Y.
      rewrite !app_nil_r in Y. subst b'. split; [reflexivity|]. apply app_inv_head in S1. now injection S1. }
    destruct X as [-> ->]. exact T'.
Qed.

Lemma append_incompatible lin ss sch lv :
  NoDup (ids lin) -> table lin ss -> (fst lv + 1 = N.of_nat (length ss))%N ->
  let new := commented (N.of_nat (length ss), 0%N) sch in
  exists lin' es, appendlin lin sch lv false = Ok lin' /\ table lin' (ss ++ [[new]]) /\
    exists q, list_changed lin lin' es (es ++ [q]).
Proof.
  intros N T V new. destruct (new_sequence _ _ new N T) as (l & E & L & Q & C).
  unfold appendlin. rewrite E. rewrite V. eexists _, _. split; [reflexivity|].
  split; [exact Q|]. eexists. exact C.
Qed.

Lemma append_no_list lin sch lv : all_seqs lin = [] ->
  appendlin lin sch lv true =
    Err (new_err "could not get lineage's latest seq's schema list: could not find seqs list in input") /\
  appendlin lin sch lv false = Err (new_err "could not find seqs list in lineage input").
Proof.
  intros E. unfold appendlin, latestSchemaList. rewrite findSeqs_first, E. split; reflexivity.
Qed.

(** ToExpr. *)
Definition clause (n : node) : Prop := (exists p, node_kind n = KPackage p) \/ (exists p, node_kind n = KImport p).
Definition remark (n : node) : Prop := (exists p, node_kind n = KComment p) \/ (exists p, node_kind n = KAttr p).

Lemma header_clauses pre : Forall (fun n => clause n \/ remark n) pre -> forall p i st rest, clause p ->
  header i st (pre ++ p :: rest) = header (S (i + length pre)) (S (i + length pre)) rest.
Proof.
  intros F. induction F as [|x pre Hx _ IH]; intros p i st rest Hp.
  - cbn. rewrite Nat.add_0_r. destruct Hp as [[q E]|[q E]]; rewrite E; reflexivity.
  - cbn. assert (forall st', header (S i) st' (pre ++ p :: rest) = header (S (i + S (length pre))) (S (i + S (length pre))) rest).
    { intros st'. rewrite IH by exact Hp. f_equal; cbn; lia. }
    destruct Hx as [[[q E]|[q E]]|[[q E]|[q E]]]; rewrite E; auto.
Qed.
Lemma header_rest cm : Forall remark cm -> forall i st d rest,
  ~ clause d -> ~ remark d -> header i st (cm ++ d :: rest) = st.
Proof.
  intros F. induction F as [|x cm Hx _ IH]; intros i st d rest N1 N2; cbn.
  - unfold clause, remark in *. destruct (node_kind d); auto; exfalso; eauto.
  - destruct Hx as [[q E]|[q E]]; rewrite E; auto.
Qed.
Lemma header_remarks cm : Forall remark cm -> forall i st, header i st cm = st.
Proof.
  intros F. induction F as [|x cm Hx _ IH]; intros i st; cbn; [reflexivity|].
  destruct Hx as [[q E]|[q E]]; rewrite E; auto.
Qed.
Definition as_expr (ds : list node) (e : node) : Prop :=
  (exists i r, ds = [Node i KEmbed (e :: r)]) \/
  ((forall i r e', ds <> [Node i KEmbed (e' :: r)]) /\ e = Node 0 KStruct ds).
Lemma toExpr_as ds : as_expr (skipn (header 0 0 ds) ds) (toExpr ds).
Proof.
  unfold toExpr, as_expr. set (d := skipn _ _). clearbody d.
  destruct d as [|[i k cs] r]; [right; split; [congruence|reflexivity]|].
  destruct k; try (right; split; [congruence|reflexivity]).
  destruct cs as [|e cs]; [right; split; [congruence|reflexivity]|].
  destruct r; [left; eauto|right; split; [congruence|reflexivity]].
Qed.
Lemma skipn_mid {A} (b : list A) x a : skipn (S (length b)) (b ++ x :: a) = a.
Proof. induction b as [|z b IH]; [reflexivity|]. cbn [app length skipn]. exact IH. Qed.
Lemma toExpr_spec pre p cm rest :
  Forall (fun n => clause n \/ remark n) pre -> clause p -> Forall remark cm ->
  (forall d, hd_error rest = Some d -> ~ clause d /\ ~ remark d) ->
  as_expr (cm ++ rest) (toExpr (pre ++ p :: cm ++ rest)).
Proof.
  intros F Hp Fc Hr. pose proof (toExpr_as (pre ++ p :: cm ++ rest)) as X.
  rewrite (header_clauses pre F p 0 0 _ Hp) in X. cbn [Nat.add] in X.
  destruct rest as [|d r].
  - rewrite app_nil_r in *. rewrite (header_remarks cm Fc), skipn_mid in X. exact X.
  - destruct (Hr d eq_refl) as [N1 N2]. rewrite (header_rest cm Fc _ _ d r N1 N2), skipn_mid in X. exact X.
Qed.
Lemma toExpr_plain cm rest : Forall remark cm ->
  (forall d, hd_error rest = Some d -> ~ clause d /\ ~ remark d) ->
  as_expr (cm ++ rest) (toExpr (cm ++ rest)).
Proof.
  intros Fc Hr. pose proof (toExpr_as (cm ++ rest)) as X. destruct rest as [|d r].
  - rewrite app_nil_r in *. rewrite (header_remarks cm Fc) in X. exact X.
  - destruct (Hr d eq_refl) as [N1 N2]. rewrite (header_rest cm Fc _ _ d r N1 N2) in X. exact X.
Qed.

(** *** The edit of a file *)

(** A field labelled seqs. *)
Definition seqs_field (n : node) : Prop :=
  exists i l cs, n = Node i (KField l) cs /\ (l = LIdent "seqs" \/ l = LString "seqs").

Lemma is_seqs_spec n : is_seqs n = true <-> seqs_field n.
Proof.
  unfold is_seqs, isFieldWithLabel, seqs_field. destruct n as [i k cs]. split.
  - destruct k as [|l| | | | | | | |]; try discriminate. intros H. exists i, l, cs. split; [reflexivity|].
    destruct l; cbn in H; try discriminate; apply String.eqb_eq in H; subst; auto.
  - intros (i' & l & cs' & [= -> -> ->] & [-> | ->]); reflexivity.
Qed.
Lemma is_seqs_false n : is_seqs n = false <-> ~ seqs_field n.
Proof. rewrite <- is_seqs_spec. destruct (is_seqs n); split; congruence. Qed.

Lemma preorder_self n : In n (preorder n).
Proof. destruct n; cbn; auto. Qed.

Lemma has_label_false n : (forall m, In m (preorder n) -> ~ seqs_field m) -> has_label n = false.
Proof.
  induction n as [i k cs IH] using node_ind'. intros H. cbn [has_label].
  rewrite (proj2 (is_seqs_false _)) by (apply H, preorder_self). cbn [orb].
  assert (H' : forall m, In m (flat_map preorder cs) -> ~ seqs_field m) by (intros m Hm; apply H; cbn; auto).
  clear H. induction IH as [|c r Hc _ IH']; cbn; [reflexivity|].
  rewrite Hc; [apply IH'|]; intros m Hm; apply H'; cbn; rewrite in_app_iff; auto.
Qed.
Lemma no_label l : (forall m, In m (flat_map preorder l) -> ~ seqs_field m) -> existsb has_label l = false.
Proof.
  intros Nn. induction l as [|x r IH]; [reflexivity|].
  cbn [existsb]. rewrite has_label_false, IH; [reflexivity| |]; intros m Hm; apply Nn; cbn; rewrite in_app_iff; auto.
Qed.
Lemma has_label_true n m : In m (preorder n) -> seqs_field m -> has_label n = true.
Proof.
  intros Hm Hs. induction n as [i k cs IH] using node_ind'. cbn [has_label]. cbn [preorder] in Hm.
  destruct Hm as [<-|Hm]. { rewrite (proj2 (is_seqs_spec _) Hs). reflexivity. }
  apply orb_true_iff. right. apply existsb_exists. apply in_flat_map in Hm. destruct Hm as (c & Hc & Hm).
  exists c. split; [exact Hc|]. rewrite Forall_forall in IH. auto.
Qed.

Lemma replace_none new n : (forall m, In m (preorder n) -> ~ seqs_field m) -> replace_seqs new n = n.
Proof.
  induction n as [i k cs IH] using node_ind'. intros H. cbn [replace_seqs]. f_equal.
  assert (H' : forall m, In m (flat_map preorder cs) -> ~ seqs_field m) by (intros m Hm; apply H; cbn; auto).
  clear H. induction IH as [|c r Hc _ IH']; cbn; [reflexivity|].
  rewrite (proj2 (is_seqs_false c)) by (apply H'; cbn; rewrite in_app_iff; left; apply preorder_self).
  cbn. rewrite Hc, IH'; [reflexivity| |]; intros m Hm; apply H'; cbn; rewrite in_app_iff; auto.
Qed.
Lemma replace_none_list new l : (forall m, In m (flat_map preorder l) -> ~ seqs_field m) ->
  flat_map (fun c => if is_seqs c then new else [replace_seqs new c]) l = l.
Proof.
  induction l as [|c r IH]; intros H; cbn; [reflexivity|].
  rewrite (proj2 (is_seqs_false c)) by (apply H; cbn; rewrite in_app_iff; left; apply preorder_self).
  cbn. rewrite replace_none, IH; [reflexivity| |]; intros m Hm; apply H; cbn; rewrite in_app_iff; auto.
Qed.

Lemma map_ids_preorder n : map node_id (preorder n) = ids n.
Proof.
  induction n as [i k cs IH] using node_ind'. cbn. f_equal.
  induction IH as [|c r Hc _ IH']; cbn; [reflexivity|]. now rewrite map_app, Hc, IH'.
Qed.
Lemma in_preorder_ids m l : In m (flat_map preorder l) -> In (node_id m) (flat_map ids l).
Proof.
  intros H. apply in_flat_map in H. destruct H as (c & Hc & Hm). apply in_flat_map. exists c. split; [exact Hc|].
  rewrite <- map_ids_preorder. now apply in_map.
Qed.

(** One field labelled seqs strictly below a node. *)
Lemma replace_one new n src :
  NoDup (ids src) -> In n (preorder src) -> seqs_field n -> ~ seqs_field src ->
  (forall m, In m (preorder src) -> seqs_field m -> m = n) ->
  exists c, [src] = plug c [n] /\ [replace_seqs new src] = plug c new.
Proof.
  intros N Hin Hn. induction src as [i k cs IH] using node_ind'. intros Hs U.
  cbn [preorder] in Hin. destruct Hin as [E|Hin]; [exfalso; apply Hs; now rewrite E|].
  apply in_flat_map in Hin. destruct Hin as (x & Hx & Hin).
  destruct (in_split _ _ Hx) as (b & a & ->).
  rewrite Forall_app in IH. destruct IH as [_ IH]. inversion IH as [|? ? Hxx _]; subst.
  cbn [ids] in N. inversion N as [|? ? _ N' E]; subst.
  rewrite flat_map_app in N'. cbn [flat_map] in N'.
  destruct (NoDup_app _ _ N') as (_ & N2 & D1). destruct (NoDup_app _ _ N2) as (N3 & _ & D2).
  assert (Ix : In (node_id n) (ids x)).
  { rewrite <- map_ids_preorder. now apply in_map. }
  assert (Hb : forall m, In m (flat_map preorder b) -> ~ seqs_field m).
  { intros m Hm Hsm. assert (m = n).
    { apply U; [|exact Hsm]. cbn. right. rewrite flat_map_app, in_app_iff. auto. }
    subst m. apply in_preorder_ids in Hm. eapply D1; [exact Hm|]. rewrite in_app_iff. auto. }
  assert (Ha : forall m, In m (flat_map preorder a) -> ~ seqs_field m).
  { intros m Hm Hsm. assert (m = n).
    { apply U; [|exact Hsm]. cbn. right. rewrite flat_map_app, in_app_iff. cbn. rewrite in_app_iff. auto. }
    subst m. apply in_preorder_ids in Hm. eapply D2; [exact Ix|exact Hm]. }
  destruct (is_seqs x) eqn:Ex.
  - assert (x = n).
    { apply U; [|now apply is_seqs_spec]. cbn. right. rewrite flat_map_app, in_app_iff. cbn. right.
      rewrite in_app_iff. left. apply preorder_self. }
    subst x. exists [Fr i k b a]. split; [reflexivity|].
    cbn [replace_seqs plug]. rewrite flat_map_app. cbn [flat_map]. rewrite Ex.
    now rewrite !replace_none_list.
  - destruct Hxx as (c & P1 & P2); auto.
    { now apply is_seqs_false. }
    { intros m Hm Hsm. apply U; [|exact Hsm]. cbn. right. rewrite flat_map_app, in_app_iff. cbn. right.
      rewrite in_app_iff. auto. }
    exists (Fr i k b a :: c). cbn [plug]. rewrite <- P1, <- P2. split; [reflexivity|].
    cbn [replace_seqs]. rewrite flat_map_app. cbn [flat_map]. rewrite Ex.
    now rewrite !replace_none_list.
Qed.

Lemma preorder_place f src : In src (preorder f) -> exists c, [f] = plug c [src].
Proof.
  induction f as [i k cs IH] using node_ind'. cbn [preorder]. intros [<-|H].
  - exists []. reflexivity.
  - apply in_flat_map in H. destruct H as (x & Hx & H). destruct (in_split _ _ Hx) as (b & a & ->).
    rewrite Forall_forall in IH. destruct (IH x Hx H) as (c & E).
    exists (Fr i k b a :: c). cbn. now rewrite <- E.
Qed.

Lemma NoDup_flat_map_in {A B} (g : A -> list B) l x : NoDup (flat_map g l) -> In x l -> NoDup (g x).
Proof.
  intros N H. destruct (in_split _ _ H) as (b & a & ->). rewrite flat_map_app in N. cbn in N.
  destruct (NoDup_app _ _ N) as (_ & N2 & _). now destruct (NoDup_app _ _ N2).
Qed.

Lemma file_of_in files f i : NoDup (flat_map ids files) -> In f files -> In i (ids f) -> file_of i files = Some f.
Proof.
  unfold file_of. induction files as [|g r IH]; cbn; [tauto|]. intros N Hf Hi.
  destruct (NoDup_app _ _ N) as (_ & N2 & D).
  destruct (existsb (N.eqb i) (ids g)) eqn:E.
  - apply existsb_exists in E. destruct E as (j & Hj & E). apply N.eqb_eq in E. subst j.
    destruct Hf as [->|Hf]; [reflexivity|]. exfalso. eapply D; [exact Hj|]. apply in_flat_map. eauto.
  - destruct Hf as [->|Hf]; [|auto]. exfalso.
    assert (X : existsb (N.eqb i) (ids f) = true) by (apply existsb_exists; exists i; split; [exact Hi|apply N.eqb_refl]).
    congruence.
Qed.

Lemma NoDup_sub f src : In src (preorder f) -> NoDup (ids f) -> NoDup (ids src).
Proof.
  induction f as [i k cs IH] using node_ind'. cbn [preorder ids]. intros [<-|H] N; [exact N|].
  inversion N as [|? ? _ N' E]; subst. apply in_flat_map in H. destruct H as (x & Hx & H).
  rewrite Forall_forall in IH. apply (IH x Hx H). eapply NoDup_flat_map_in; eauto.
Qed.

(** *** The literal that is edited *)

Section VInd.
Variable P : value -> Prop.
Hypothesis H : forall b s q vs, Forall P vs -> P (Val b s q vs).
Fixpoint value_ind' (v : value) : P v :=
  match v with
  | Val b s q vs => H b s q vs ((fix go (l : list value) : Forall P l :=
      match l with [] => Forall_nil _ | c :: r => Forall_cons _ (value_ind' c) (go r) end) vs)
  end.
End VInd.

(** The source is a struct literal, or a field whose value is one. *)
Definition literal (v : value) : Prop :=
  exists n, v_src v = Some n /\
    (node_kind n = KStruct \/ exists l x r, node_kind n = KField l /\ children n = x :: r /\ node_kind x = KStruct).

Lemma literal_spec v : isStructLiteral v = true <-> literal v.
Proof.
  unfold isStructLiteral, literal. destruct (v_src v) as [[i k cs]|].
  - split.
    + intros H. exists (Node i k cs). split; [reflexivity|]. cbn.
      destruct k as [|l| | | | | | | |]; try discriminate; auto.
      destruct cs as [|[j k' es] r]; try discriminate. destruct k'; try discriminate. right.
      exists l, (Node j KStruct es), r. auto.
    + intros (n & [= <-] & [E|(l & x & r & E1 & E2 & E3)]); cbn in *; subst; [reflexivity|].
      destruct x as [j k' es]. cbn in E3. now subst.
  - split; [discriminate|]. intros (n & ? & _). discriminate.
Qed.

(** The literals reached through unifications of values with seqs, from left to
    right. *)
Inductive lits : value -> list value -> Prop :=
| lits_here v : literal v -> lits v [v]
| lits_and v ls : ~ literal v -> lits_list (v_conj v) ls -> lits v ls
with lits_list : list value -> list value -> Prop :=
| ll_nil : lits_list [] []
| ll_skip x r ls : v_seqs x = None -> lits_list r ls -> lits_list (x :: r) ls
| ll_in x r l1 l2 : v_seqs x <> None -> lits x l1 -> lits_list r l2 -> lits_list (x :: r) (l1 ++ l2).
Scheme lits_mut := Induction for lits Sort Prop with lits_list_mut := Induction for lits_list Sort Prop.

Fixpoint first_lit (l : list value) : option value :=
  match l with
  | [] => None
  | x :: r => if has_seqs x then match findSeqsVal x with Some w => Some w | None => first_lit r end else first_lit r
  end.
Lemma findSeqsVal_eq v : findSeqsVal v = if isStructLiteral v then Some v else first_lit (v_conj v).
Proof.
  destruct v as [b s q vs]. cbn [findSeqsVal v_conj]. destruct (isStructLiteral (Val b s q vs)); [reflexivity|].
  induction vs as [|x r IH]; cbn; [reflexivity|]. destruct (has_seqs x); [|exact IH].
  destruct (findSeqsVal x); auto.
Qed.
Lemma has_seqs_false x : has_seqs x = false <-> v_seqs x = None.
Proof. unfold has_seqs. destruct (v_seqs x); split; congruence. Qed.
Lemma has_seqs_true x : has_seqs x = true <-> v_seqs x <> None.
Proof. unfold has_seqs. destruct (v_seqs x); split; congruence. Qed.

Lemma findSeqsVal_lits v ls : lits v ls -> findSeqsVal v = hd_error ls.
Proof.
  revert v ls. apply (lits_mut (fun v ls _ => findSeqsVal v = hd_error ls) (fun l ls _ => first_lit l = hd_error ls)).
  - intros v Hv. rewrite findSeqsVal_eq, (proj2 (literal_spec v) Hv). reflexivity.
  - intros v ls Hv _ IH. rewrite findSeqsVal_eq. destruct (isStructLiteral v) eqn:E; [|exact IH].
    exfalso. apply Hv. now apply literal_spec.
  - reflexivity.
  - intros x r ls Hx _ IH. cbn. now rewrite (proj2 (has_seqs_false x) Hx).
  - intros x r l1 l2 Hx _ IH1 _ IH2. cbn. rewrite (proj2 (has_seqs_true x) Hx), IH1, hd_error_app.
    destruct (hd_error l1); auto.
Qed.
Lemma lits_total v : exists ls, lits v ls.
Proof.
  induction v as [b s q vs IH] using value_ind'.
  destruct (isStructLiteral (Val b s q vs)) eqn:E.
  - exists [Val b s q vs]. constructor. now apply literal_spec.
  - assert (X : exists ls, lits_list vs ls).
    { clear E. induction IH as [|x r [l1 Hx] _ [l2 IH']]; [eexists; constructor|].
      destruct (has_seqs x) eqn:Ex.
      - eexists. apply ll_in; eauto. now apply has_seqs_true.
      - eexists. apply ll_skip; eauto. now apply has_seqs_false. }
    destruct X as [ls X]. exists ls. apply lits_and; [|exact X].
    intros Y. apply literal_spec in Y. congruence.
Qed.

(** *** C92 *)

Lemma rewrite_errors inst path pt :
  (i_files inst = None ->
     rewriteLegacyLineage inst path pt = Err (new_err "provided cue.Value must be the root of a CUE package instance")) /\
  (forall files, i_files inst = Some files ->
     let v := i_lookup inst path in
     (v_exists v = false ->
        rewriteLegacyLineage inst path pt = Err (new_err ("no value exists at CUE path """ ++ pt ++ """"))) /\
     (v_exists v = true -> v_seqs v = None ->
        rewriteLegacyLineage inst path pt = Err (new_err "value does not contain a 'seqs' field")) /\
     (v_exists v = true -> v_seqs v <> None -> lits v [] -> path <> [] ->
        rewriteLegacyLineage inst path pt = Err (new_err "could not find parent of seqs field in AST"))).
Proof.
  unfold rewriteLegacyLineage. split; [intros ->; reflexivity|]. intros files ->. cbn zeta.
  split; [|split].
  - intros ->. reflexivity.
  - intros -> E. cbn [negb]. now rewrite (proj2 (has_seqs_false _) E).
  - intros -> E L P. cbn [negb]. rewrite (proj2 (has_seqs_true _) E). cbn [negb].
    rewrite (findSeqsVal_lits _ _ L). cbn. destruct path; congruence.
Qed.

(** The value whose literal is rewritten. *)
Definition target (inst : instance) (path : list string) (v : value) : Prop :=
  v_exists (i_lookup inst path) = true /\ v_seqs (i_lookup inst path) <> None /\
  ((exists r, lits (i_lookup inst path) (v :: r)) \/
   (lits (i_lookup inst path) [] /\ path = [] /\ v = i_lookup inst path)).

Lemma target_rewrites inst path pt files v : i_files inst = Some files -> target inst path v ->
  rewriteLegacyLineage inst path pt = rewrite_value files v.
Proof.
  unfold rewriteLegacyLineage. intros -> (E & S1 & T). rewrite E, (proj2 (has_seqs_true _) S1). cbn [negb].
  destruct T as [[r L]|(L & -> & ->)]; rewrite (findSeqsVal_lits _ _ L); reflexivity.
Qed.

Definition parsed (v : value) : option (list lseq) := match v_seqs v with Some q => q | None => None end.

Lemma rewrite_parts_fail inst path pt files v :
  i_files inst = Some files -> target inst path v ->
  (forall e, rewrite_legacy (parsed v) = Err e -> rewriteLegacyLineage inst path pt = Err e).
Proof.
  intros F T e E. rewrite (target_rewrites _ _ pt _ _ F T). unfold rewrite_value.
  unfold parsed in E. now rewrite E.
Qed.

Lemma rewrite_one inst path pt files f v src n p :
  i_files inst = Some files -> NoDup (flat_map ids files) -> In f files -> In src (preorder f) ->
  target inst path v -> v_src v = Some src -> rewrite_legacy (parsed v) = Ok p ->
  In n (preorder src) -> seqs_field n -> ~ seqs_field src ->
  (forall m, In m (preorder src) -> seqs_field m -> m = n) ->
  (forall m, In m (flat_map preorder (new_fields p)) -> ~ seqs_field m) ->
  exists c1 c2 f', rewriteLegacyLineage inst path pt = Ok f' /\
    [f] = plug c1 [src] /\ [src] = plug c2 [n] /\ [f'] = plug c1 (plug c2 (new_fields p)).
Proof.
  intros F N Hf Hs T Es Ep Hn Sn Ss U Nn.
  assert (Nf : NoDup (ids f)) by (eapply NoDup_flat_map_in; eauto).
  destruct (preorder_place f src Hs) as (c1 & P1).
  destruct (replace_one (new_fields p) n src (NoDup_sub _ _ Hs Nf) Hn Sn Ss U) as (c2 & P2 & P3).
  exists c1, c2, (at_id (node_id src) (replace_seqs (new_fields p)) f).
  split; [|split; [exact P1|split; [exact P2|]]].
  - rewrite (target_rewrites _ _ pt _ _ F T). unfold rewrite_value. unfold parsed in Ep. rewrite Ep. cbn [bind].
    rewrite Es. rewrite (file_of_in files f); auto.
    + unfold edit. rewrite (proj2 (is_seqs_false src) Ss).
      replace (existsb has_label (new_fields p)) with false; [now rewrite andb_false_r|].
      symmetry. now apply no_label.
    + rewrite <- map_ids_preorder. now apply in_map.
  - rewrite <- P3. exact (at_id_plug _ _ _ _ Nf P1).
Qed.

(** No field below the literal is labelled seqs: the file is returned as it
    is. *)
Lemma rewrite_nothing inst path pt files f v src p :
  i_files inst = Some files -> NoDup (flat_map ids files) -> In f files -> In src (preorder f) ->
  target inst path v -> v_src v = Some src -> rewrite_legacy (parsed v) = Ok p ->
  (forall m, In m (preorder src) -> ~ seqs_field m) ->
  rewriteLegacyLineage inst path pt = Ok f.
Proof.
  intros F N Hf Hs T Es Ep U.
  assert (Nf : NoDup (ids f)) by (eapply NoDup_flat_map_in; eauto).
  rewrite (target_rewrites _ _ pt _ _ F T). unfold rewrite_value. unfold parsed in Ep. rewrite Ep. cbn [bind].
  rewrite Es. rewrite (file_of_in files f); auto.
  - unfold edit. rewrite (proj2 (is_seqs_false src)) by (apply U, preorder_self).
    rewrite (has_label_false src U). cbn [andb].
    destruct (preorder_place f src Hs) as (c1 & P1).
    pose proof (at_id_plug (replace_seqs (new_fields p)) _ _ _ Nf P1) as Q.
    rewrite (replace_none _ src U), <- P1 in Q. injection Q as ->. reflexivity.
  - rewrite <- map_ids_preorder. now apply in_map.
Qed.

(** The source is in none of the files of the instance, or there is none. *)
Lemma rewrite_elsewhere inst path pt files v p :
  i_files inst = Some files -> target inst path v -> rewrite_legacy (parsed v) = Ok p ->
  (forall src, v_src v = Some src -> ~ In (node_id src) (flat_map ids files)) ->
  rewriteLegacyLineage inst path pt = Panic.
Proof.
  intros F T Ep U. rewrite (target_rewrites _ _ pt _ _ F T). unfold rewrite_value. unfold parsed in Ep.
  rewrite Ep. cbn [bind]. destruct (v_src v) as [src|]; [|reflexivity].
  destruct (file_of (node_id src) files) as [f|] eqn:E; [|reflexivity].
  exfalso. unfold file_of in E. apply find_some in E. destruct E as (H & E). apply existsb_exists in E.
  destruct E as (j & Hj & E). apply N.eqb_eq in E. subst j.
  apply (U src eq_refl). apply in_flat_map. eauto.
Qed.

(** A label seqs in the new fields. *)
Lemma rewrite_cyclic inst path pt files f v src m p :
  i_files inst = Some files -> NoDup (flat_map ids files) -> In f files -> In src (preorder f) ->
  target inst path v -> v_src v = Some src -> rewrite_legacy (parsed v) = Ok p ->
  (exists n, In n (preorder src) /\ seqs_field n) ->
  In m (flat_map preorder (new_fields p)) -> seqs_field m ->
  rewriteLegacyLineage inst path pt = Panic.
Proof.
  intros F N Hf Hs T Es Ep (n & Hn & Sn) Hm Sm.
  rewrite (target_rewrites _ _ pt _ _ F T). unfold rewrite_value. unfold parsed in Ep. rewrite Ep. cbn [bind].
  rewrite Es. rewrite (file_of_in files f); auto.
  - unfold edit. destruct (is_seqs src); [reflexivity|]. rewrite (has_label_true _ _ Hn Sn). cbn [andb].
    apply in_flat_map in Hm. destruct Hm as (x & Hx & Hm).
    replace (existsb has_label (new_fields p)) with true; [reflexivity|]. symmetry. apply existsb_exists.
    exists x. split; [exact Hx|]. eapply has_label_true; eauto.
  - rewrite <- map_ids_preorder. now apply in_map.
Qed.

(** The new fields can be read back. *)
Fixpoint read (path : list string) (n : node) : option node :=
  match path with
  | [] => Some n
  | x :: r =>
      match find (fun c => match node_kind c with KField (LIdent y) => String.eqb x y | _ => false end) (children n) with
      | Some f => match children f with v :: _ => read r v | [] => None end
      | None => None
      end
  end.
(** A version as a list of two numbers. *)
Definition is_version (v : version) (o : option node) : Prop :=
  exists i i1 i2, o = Some (Node i KList [Node i1 (KOther (show_N (fst v))) []; Node i2 (KOther (show_N (snd v))) []]).
Definition kind_in (k : kind) (o : option node) : Prop := exists i cs, o = Some (Node i k cs).

Lemma new_fields_read p :
  exists s l, new_fields p = [s; l] /\
    node_kind s = KField (LIdent "schemas") /\ node_kind l = KField (LIdent "lenses") /\
    (exists i es, children s = [Node i KList es] /\
       Forall2 (fun x q => is_version (n_version x) (read ["version"] q) /\
                           read ["schema"] q = Some (of_aexpr (AStruct (n_schema x))) /\
                           length (children q) = 2%nat) (fst p) es) /\
    (exists i es, children l = [Node i KList es] /\
       Forall2 (fun x q => is_version (nl_to x) (read ["to"] q) /\ is_version (nl_from x) (read ["from"] q) /\
                           kind_in (KOther "_") (read ["input"] q) /\
                           (forall fs, nl_result x = BFields fs -> read ["result"] q = Some (of_aexpr (AStruct fs))) /\
                           (nl_result x = BTodo -> exists r, read ["result"] q = Some r /\
                               exists m, In m (preorder r) /\ node_kind m = KOther "_|_") /\
                           (exists i, read ["lacunas"] q = Some (Node i KList (map of_aexpr (nl_lacunas x)))) /\
                           length (children q) = 5%nat) (snd p) es).
Proof.
  eexists _, _. split; [reflexivity|]. split; [reflexivity|]. split; [reflexivity|]. split.
  - eexists _, _. split; [reflexivity|]. induction (fst p) as [|x r IH]; cbn; constructor; [|exact IH].
    split; [repeat eexists|]. split; reflexivity.
  - eexists _, _. split; [reflexivity|]. induction (snd p) as [|x r IH]; cbn; constructor; [|exact IH].
    split; [repeat eexists|]. split; [repeat eexists|]. split; [repeat eexists|].
    split; [intros fs E; cbn; now rewrite E|]. split.
    + intros E. cbn. rewrite E. eexists. split; [reflexivity|]. cbn. eexists. split; [right; right; left; reflexivity|reflexivity].
    + split; [repeat eexists|]. reflexivity.
Qed.

(** thema lineage fix. *)
Lemma fix_spec fmt inst path pt name bytes :
  fix_do fmt inst path pt = Ok (name, bytes) <->
  exists f, rewriteLegacyLineage inst path pt = Ok f /\ fmt f = Ok bytes /\
    name = match node_kind f with KFile n => n | _ => "" end.
Proof.
  unfold fix_do. destruct (rewriteLegacyLineage inst path pt) as [f| | |]; cbn [bind].
  2-4: split; [discriminate|intros (f & ? & _); discriminate].
  destruct (fmt f) as [b| | |] eqn:Eb; cbn [bind].
  2-4: split; [discriminate|intros (f' & [= <-] & E & _); congruence].
  assert (X : filename f = match node_kind f with KFile n => n | _ => "" end) by (destruct f as [i k cs]; destruct k; reflexivity).
  split.
  - intros [= <- <-]. exists f. auto.
  - intros (f' & [= <-] & E & ->). rewrite X. congruence.
Qed.
Lemma same_name c1 c2 f src n new f' :
  [f] = plug c1 [src] -> [src] = plug c2 [n] -> c2 <> [] -> [f'] = plug c1 (plug c2 new) -> node_kind f' = node_kind f.
Proof.
  intros P1 P2 NE P3. destruct c1 as [|[i k b a] r]; cbn in *.
  - injection P1 as ->. destruct c2 as [|[i k b a] r]; [congruence|]. cbn in *.
    injection P2 as ->. injection P3 as ->. reflexivity.
  - injection P1 as ->. injection P3 as ->. reflexivity.
Qed.
Lemma fix_one fmt inst path pt files f v src n p :
  i_files inst = Some files -> NoDup (flat_map ids files) -> In f files -> In src (preorder f) ->
  target inst path v -> v_src v = Some src -> rewrite_legacy (parsed v) = Ok p ->
  In n (preorder src) -> seqs_field n -> ~ seqs_field src ->
  (forall m, In m (preorder src) -> seqs_field m -> m = n) ->
  (forall m, In m (flat_map preorder (new_fields p)) -> ~ seqs_field m) ->
  exists c1 c2 f', [f] = plug c1 [src] /\ [src] = plug c2 [n] /\ [f'] = plug c1 (plug c2 (new_fields p)) /\
    (forall bytes name, node_kind f = KFile name -> fmt f' = Ok bytes -> fix_do fmt inst path pt = Ok (name, bytes)) /\
    (forall e, fmt f' = Err e -> fix_do fmt inst path pt = Err e).
Proof.
  intros F N Hf Hs T Es Ep Hn Sn Ss U Nn.
  destruct (rewrite_one inst path pt files f v src n p F N Hf Hs T Es Ep Hn Sn Ss U Nn) as (c1 & c2 & f' & R & P1 & P2 & P3).
  exists c1, c2, f'. split; [exact P1|]. split; [exact P2|]. split; [exact P3|]. split.
  - intros bytes name K E. apply fix_spec. exists f'. split; [exact R|]. split; [exact E|].
    rewrite (same_name c1 c2 f src n (new_fields p) f' P1 P2); [now rewrite K| |exact P3].
    intros ->. cbn in P2. injection P2 as ->. contradiction.
  - intros e E. unfold fix_do. rewrite R. cbn [bind]. now rewrite E.
Qed.
