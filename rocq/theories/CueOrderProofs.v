(** Unification of any schema of the fragment with data: the result is the same
    whichever is first, up to the order of fields. *)
From Verif Require Import Prelude CueFrag CueSem CueProofs Hydrate HydrateSem HydrateProofs
  HydrateFacts CueEval CueEvalSem CueEvalProofs CueKeepProofs.
Local Open Scope string_scope.
Local Open Scope list_scope.

(** *** Equality of data *)
Lemma deq_list l m : deq (DList l) (DList m) = true <-> Forall2 (fun x y => deq x y = true) l m.
Proof.
  revert m. induction l as [|x l IH]; intros [|y m]; cbn; (split; [intros H|intros H; inversion H; subst]); try discriminate; try constructor.
  - apply andb_true_iff in H as [H _]. exact H.
  - apply andb_true_iff in H as [_ H]. apply IH. exact H.
  - apply andb_true_iff. split; [assumption|]. apply IH. assumption.
Qed.
Lemma deq_struct l m : deq (DStruct l) (DStruct m) = true <->
  length l = length m /\ forall k x, In (k, x) l -> exists y, lookup k m = Some y /\ deq x y = true.
Proof.
  cbn [deq]. rewrite andb_true_iff, Nat.eqb_eq, forallb_forall. split; intros [A B]; (split; [exact A|]).
  - intros k x H. specialize (B (k, x) H). cbn in B. destruct (lookup k m) as [y|]; [|discriminate]. exists y. auto.
  - intros [k x] H. destruct (B k x H) as [y [E D]]. cbn. rewrite E. exact D.
Qed.

Lemma dwf_list_iff l : dwf (DList l) <-> Forall dwf l.
Proof. induction l as [|x l IH]; cbn in *; [split; auto|]. rewrite IH. split; [intros [A B]; auto|intros H; inversion H; auto]. Qed.
Lemma dwf_struct_iff l : dwf (DStruct l) <-> NoDup (map fst l) /\ Forall (fun kx => dwf (snd kx)) l.
Proof.
  cbn. assert (E : (fix go (l : list (string * data)) : Prop := match l with [] => True | kx :: t => dwf (snd kx) /\ go t end) l <-> Forall (fun kx => dwf (snd kx)) l); [|tauto].
  induction l as [|x l IH]; [split; auto|]. rewrite IH. split; [intros [A B]; auto|intros H; inversion H; auto].
Qed.

Lemma deq_refl d : dwf d -> deq d d = true.
Proof.
  induction d as [a|l IH|l IH] using data_ind'; intros W.
  - apply deq_atom.
  - apply deq_list. apply dwf_list_iff in W. induction l; constructor; inversion IH; inversion W; subst; auto.
  - apply deq_struct. apply dwf_struct_iff in W as [N W]. split; [reflexivity|]. intros k x H. exists x. split; [apply lookup_in; assumption|].
    rewrite Forall_forall in IH, W. apply (IH (k, x) H), (W (k, x) H).
Qed.
Lemma keys_equal (l m : list (string * data)) : NoDup (map fst l) -> length l = length m -> incl (map fst l) (map fst m) -> incl (map fst m) (map fst l).
Proof. intros N L I. apply NoDup_length_incl; [exact N|rewrite !map_length; lia|exact I]. Qed.
Lemma deq_sym d : forall e, dwf d -> dwf e -> deq d e = true -> deq e d = true.
Proof.
  induction d as [a|l IH|l IH] using data_ind'; intros [b|m|m] Wd We D; try discriminate D.
  - cbn in *. apply atom_eqb_eq in D as ->. apply atom_eqb_eq. reflexivity.
  - apply deq_list. apply deq_list in D. apply dwf_list_iff in Wd, We. induction D as [|x y l m D1 D2 ID]; constructor; inversion IH; inversion Wd; inversion We; subst; auto.
  - apply deq_struct in D as [L D]. apply deq_struct. split; [auto|]. apply dwf_struct_iff in Wd as [Nd Wd], We as [Ne We]. rewrite Forall_forall in IH, Wd, We.
    intros k y H. assert (K : In k (map fst l)).
    { apply (keys_equal l m Nd L); [|apply (in_map fst) in H; exact H]. intros j J. apply in_map_iff in J as [[j' x] [<- J]]. destruct (D _ _ J) as [z [Z _]].
      apply lookup_some_in in Z. apply (in_map fst) in Z. exact Z. }
    apply in_map_iff in K as [[k' x] [E K]]. cbn in E. subst k'. destruct (D _ _ K) as [z [Z D']]. rewrite (lookup_in m k y Ne H) in Z. injection Z as <-.
    exists x. split; [apply lookup_in; assumption|]. apply (IH (k, x) K); [exact (Wd _ K)|exact (We _ H)|exact D'].
Qed.
Lemma deq_trans d : forall e f, deq d e = true -> deq e f = true -> deq d f = true.
Proof.
  induction d as [a|l IH|l IH] using data_ind'; intros [b|m|m] [c|n|n] D E; try discriminate D; try discriminate E.
  - cbn in *. apply atom_eqb_eq in D as ->. exact E.
  - apply deq_list in D, E. apply deq_list. revert n E. induction D as [|x y l m D1 D2 ID]; intros n E; inversion E; subst; constructor; inversion IH; subst; eauto.
  - apply deq_struct in D as [L D], E as [L' E]. apply deq_struct. split; [congruence|]. rewrite Forall_forall in IH. intros k x H.
    destruct (D _ _ H) as [y [Y D']]. apply lookup_some_in in Y. destruct (E _ _ Y) as [z [Z E']]. exists z. split; [exact Z|]. exact (IH (k, x) H _ _ D' E').
Qed.

(** *** Equality of results *)
Definition eqr (r s : res) : Prop :=
  match r, s with
  | Bot, Bot | Inc, Inc => True
  | Con x, Con y => dwf x /\ dwf y /\ deq x y = true
  | _, _ => False
  end.
Lemma eqr_con r s : eqr r s -> con r <-> con s.
Proof. destruct r, s; cbn; intros H; try contradiction; split; intros [x E]; try discriminate; eexists; reflexivity. Qed.
Lemma eqr_bot r s : eqr r s -> not_bot r = not_bot s.
Proof. destruct r, s; cbn; intros H; try contradiction; reflexivity. Qed.
Lemma eqr_same r s r' s' : eqr r r' -> eqr s s' -> same_as r s = same_as r' s'.
Proof.
  destruct r, r'; cbn; try contradiction; try reflexivity. intros [Wx [Wy D]]. destruct s as [| |u], s' as [| |w]; cbn; try contradiction; try reflexivity. intros [Wu [Ww D']].
  destruct (deq d u) eqn:A, (deq d0 w) eqn:B; try reflexivity.
  - rewrite <- B. symmetry. apply (deq_trans _ d); [apply deq_sym; assumption|]. apply (deq_trans _ u); assumption.
  - rewrite <- A. apply (deq_trans _ d0); [exact D|]. apply (deq_trans _ w); [exact B|]. apply deq_sym; assumption.
Qed.

Lemma pick_eqr l l' : Forall2 (fun x y => fst x = fst y /\ eqr (snd x) (snd y)) l l' -> eqr (pick l) (pick l').
Proof.
  intros F. unfold pick.
  assert (F1 : Forall2 (fun x y : bool * res => fst x = fst y /\ eqr (snd x) (snd y)) (filter (fun x => not_bot (snd x)) l) (filter (fun x => not_bot (snd x)) l')).
  { induction F as [|x y l l' [E R] F IH]; cbn; [constructor|]. rewrite (eqr_bot _ _ R). destruct (not_bot (snd y)); [constructor; auto|exact IH]. }
  revert F1. generalize (filter (fun x : bool * res => not_bot (snd x)) l) (filter (fun x : bool * res => not_bot (snd x)) l'). clear l l' F. intros l l' F.
  assert (X : existsb fst l = existsb fst l') by (induction F as [|x y l l' [E R] F IH]; cbn; congruence). rewrite X.
  assert (F1 : Forall2 (fun x y : bool * res => fst x = fst y /\ eqr (snd x) (snd y)) (if existsb fst l' then filter fst l else l) (if existsb fst l' then filter fst l' else l')).
  { destruct (existsb fst l'); [|exact F]. clear X. induction F as [|x y l l' [E R] F IH]; cbn; [constructor|]. rewrite E. destruct (fst y) eqn:Y; [constructor; [split; [congruence|exact R]|exact IH]|exact IH]. }
  clear X. destruct F1 as [|x y t t' [E R] F1]; [exact I|]. destruct F1 as [|x1 y1 t t' [E1 R1] F1]; [exact R|].
  assert (Y : forallb (fun z => same_as (snd x) (snd z)) (x1 :: t) = forallb (fun z => same_as (snd y) (snd z)) (y1 :: t')).
  { cbn. f_equal; [apply eqr_same; assumption|]. induction F1 as [|a b t t' [E2 R2] F1 IH]; cbn; [reflexivity|]. f_equal; [apply eqr_same; assumption|exact IH]. }
  rewrite Y. destruct (forallb (fun z => same_as (snd y) (snd z)) (y1 :: t')); [exact R|exact I].
Qed.

Lemma all_con_kind {A} (l : list (A * res)) :
  (all_con l = None /\ exists a, In (a, Bot) l) \/
  (all_con l = Some None /\ (forall a, ~ In (a, Bot) l) /\ exists a, In (a, Inc) l) \/
  exists ds, all_con l = Some (Some ds) /\ l = map (fun x => (fst x, Con (snd x))) ds.
Proof.
  induction l as [|[a r] l IH]; [right; right; exists []; auto|]. cbn.
  destruct r as [| |d].
  - left. split; [reflexivity|]. exists a. auto.
  - destruct IH as [[-> [b B]]|[[-> [N _]]|[ds [-> E]]]].
    + left. split; [reflexivity|]. exists b. auto.
    + right. left. split; [reflexivity|]. split; [|exists a; auto]. intros b [C|C]; [discriminate|exact (N b C)].
    + right. left. split; [reflexivity|]. split; [|exists a; auto]. intros b [C|C]; [discriminate|]. rewrite E in C. apply in_map_iff in C as [x [C _]]. discriminate.
  - destruct IH as [[-> [b B]]|[[-> [N [b B]]]|[ds [-> E]]]].
    + left. split; [reflexivity|]. exists b. auto.
    + right. left. split; [reflexivity|]. split; [|exists b; auto]. intros c [C|C]; [discriminate|exact (N c C)].
    + right. right. exists ((a, d) :: ds). split; [reflexivity|]. cbn. f_equal. exact E.
Qed.
Lemma eqr_of_bot r : eqr r Bot -> r = Bot.
Proof. destruct r; cbn; tauto. Qed.
Lemma eqr_of_inc r : eqr r Inc -> r = Inc.
Proof. destruct r; cbn; tauto. Qed.
Lemma eqr_of_bot' r : eqr Bot r -> r = Bot.
Proof. destruct r; cbn; tauto. Qed.
Lemma eqr_of_inc' r : eqr Inc r -> r = Inc.
Proof. destruct r; cbn; tauto. Qed.

Lemma of_struct_eqr l l' : NoDup (map fst l) -> NoDup (map fst l') ->
  (forall k r, In (k, r) l -> exists r', In (k, r') l' /\ eqr r r') ->
  (forall k r', In (k, r') l' -> exists r, In (k, r) l /\ eqr r r') -> eqr (of_struct l) (of_struct l').
Proof.
  intros N N' A B. unfold of_struct.
  destruct (all_con_kind l) as [[-> [a H]]|[[-> [H1 [a H]]]|[ds [-> E]]]].
  - destruct (A _ _ H) as [r [H' R]]. apply eqr_of_bot' in R as ->. rewrite (all_con_bot l' a H'). exact I.
  - destruct (A _ _ H) as [r [H' R]]. apply eqr_of_inc' in R as ->.
    destruct (all_con_kind l') as [[-> [b K]]|[[-> _]|[ds [-> E]]]]; [|exact I|].
    + destruct (B _ _ K) as [r [K' R]]. apply eqr_of_bot in R as ->. exact (H1 b K').
    + rewrite E in H'. apply in_map_iff in H' as [x [C _]]. discriminate.
  - destruct (all_con_kind l') as [[-> [b K]]|[[-> [_ [b K]]]|[ds' [-> E']]]].
    + destruct (B _ _ K) as [r [K' R]]. apply eqr_of_bot in R as ->. rewrite E in K'. apply in_map_iff in K' as [x [C _]]. discriminate.
    + destruct (B _ _ K) as [r [K' R]]. apply eqr_of_inc in R as ->. rewrite E in K'. apply in_map_iff in K' as [x [C _]]. discriminate.
    + assert (F : map fst l = map fst ds) by (rewrite E, map_map; reflexivity). assert (F' : map fst l' = map fst ds') by (rewrite E', map_map; reflexivity).
      rewrite F in N. rewrite F' in N'.
      assert (A' : forall k x, In (k, x) ds -> exists y, In (k, y) ds' /\ eqr (Con x) (Con y)).
      { intros k x H. destruct (A k (Con x)) as [r [H' R]]; [rewrite E; apply in_map_iff; exists (k, x); auto|]. rewrite E' in H'. apply in_map_iff in H' as [[k' y] [C H']]. cbn in C. injection C as <- <-. exists y. auto. }
      assert (B' : forall k y, In (k, y) ds' -> exists x, In (k, x) ds /\ eqr (Con x) (Con y)).
      { intros k x H. destruct (B k (Con x)) as [r [H' R]]; [rewrite E'; apply in_map_iff; exists (k, x); auto|]. rewrite E in H'. apply in_map_iff in H' as [[k' y] [C H']]. cbn in C. injection C as <- <-. exists y. auto. }
      cbn. split; [|split].
      * apply dwf_struct_iff. split; [exact N|]. apply Forall_forall. intros [k x] H. destruct (A' _ _ H) as [y [_ [W _]]]. exact W.
      * apply dwf_struct_iff. split; [exact N'|]. apply Forall_forall. intros [k x] H. destruct (B' _ _ H) as [y [_ [_ [W _]]]]. exact W.
      * apply deq_struct. split.
        -- assert (length (map fst ds) <= length (map fst ds')). { apply NoDup_incl_length; [exact N|]. intros k H. apply in_map_iff in H as [[k' x] [<- H]]. destruct (A' _ _ H) as [y [H' _]]. apply (in_map fst) in H'. exact H'. }
           assert (length (map fst ds') <= length (map fst ds)). { apply NoDup_incl_length; [exact N'|]. intros k H0. apply in_map_iff in H0 as [[k' x] [<- H0]]. destruct (B' _ _ H0) as [y [H' _]]. apply (in_map fst) in H'. exact H'. }
           rewrite !map_length in *. lia.
        -- intros k x H. destruct (A' _ _ H) as [y [H' [_ [_ D]]]]. exists y. split; [apply lookup_in; assumption|exact D].
Qed.

Lemma of_list_eqr l l' : Forall2 eqr l l' -> eqr (of_list l) (of_list l').
Proof.
  intros F. unfold of_list.
  assert (A : forall r, In r l -> exists r', In r' l' /\ eqr r r').
  { induction F as [|x y l l' R F IH]; intros r H; [destruct H|]. destruct H as [<-|H]; [exists y; split; [left; reflexivity|exact R]|]. destruct (IH r H) as [r' [? ?]]. exists r'. split; [right|]; assumption. }
  assert (B : forall r', In r' l' -> exists r, In r l /\ eqr r r').
  { clear A. induction F as [|x y l l' R F IH]; intros r H; [destruct H|]. destruct H as [<-|H]; [exists x; split; [left; reflexivity|exact R]|]. destruct (IH r H) as [r' [? ?]]. exists r'. split; [right|]; assumption. }
  assert (M : forall (l : list res) r (u : unit), In (u, r) (map (fun r => (tt, r)) l) <-> In r l).
  { intros l0 r []. rewrite in_map_iff. split; [intros [x [E H]]; injection E as <-; exact H|intros H; exists r; auto]. }
  destruct (all_con_kind (map (fun r => (tt, r)) l)) as [[-> [a H]]|[[-> [H1 [a H]]]|[ds [-> E]]]]; try (rewrite M in H).
  - destruct (A _ H) as [r [H' R]]. apply eqr_of_bot' in R as ->. rewrite (all_con_bot (map (fun r => (tt, r)) l') a); [exact I|]. apply M. exact H'.
  - destruct (A _ H) as [r [H' R]]. apply eqr_of_inc' in R as ->.
    destruct (all_con_kind (map (fun r => (tt, r)) l')) as [[-> [b K]]|[[-> _]|[ds [-> E]]]]; [|exact I|].
    + rewrite M in K. destruct (B _ K) as [r [K' R]]. apply eqr_of_bot in R as ->. apply (H1 tt), M, K'.
    + apply (M _ _ tt) in H'. rewrite E in H'. apply in_map_iff in H' as [x [C _]]. discriminate.
  - destruct (all_con_kind (map (fun r => (tt, r)) l')) as [[-> [b K]]|[[-> [_ [b K]]]|[ds' [-> E']]]].
    + rewrite M in K. destruct (B _ K) as [r [K' R]]. apply eqr_of_bot in R as ->. apply (M _ _ tt) in K'. rewrite E in K'. apply in_map_iff in K' as [x [C _]]. discriminate.
    + rewrite M in K. destruct (B _ K) as [r [K' R]]. apply eqr_of_inc in R as ->. apply (M _ _ tt) in K'. rewrite E in K'. apply in_map_iff in K' as [x [C _]]. discriminate.
    + assert (X : l = map Con (map snd ds)) by (apply (f_equal (map snd)) in E; rewrite !map_map in E; cbn in E; rewrite map_id in E; rewrite map_map; exact E).
      assert (X' : l' = map Con (map snd ds')) by (apply (f_equal (map snd)) in E'; rewrite !map_map in E'; cbn in E'; rewrite map_id in E'; rewrite map_map; exact E').
      rewrite X, X' in F. clear -F. revert F. generalize (map snd ds) (map snd ds'). clear. intros l l' F.
      assert (G : Forall2 (fun x y => eqr (Con x) (Con y)) l l').
      { revert l' F. induction l as [|x l IH]; intros [|y l'] F; inversion F; subst; constructor; auto. }
      clear F. cbn. split; [|split].
      * apply dwf_list_iff. induction G as [|x y l l' R G IH]; constructor; [apply R|exact IH].
      * apply dwf_list_iff. induction G as [|x y l l' R G IH]; constructor; [apply R|exact IH].
      * apply deq_list. induction G as [|x y l l' R G IH]; constructor; [apply R|exact IH].
Qed.

(** *** Evaluation gives data with distinct labels *)
Lemma opt_dwf r : (forall x, r = Con x -> dwf x) -> eqr r r.
Proof. destruct r; cbn; auto. intros H. specialize (H d eq_refl). auto using deq_refl. Qed.
Lemma eqr_dwf r x : eqr r r -> r = Con x -> dwf x.
Proof. intros H ->. apply H. Qed.

Lemma nodup_regular fs : NoDup (map flabel fs) ->
  NoDup (map fst (flat_map (fun f : string * bool * val => if snd (fst f) then [] else [(fst (fst f), eval (snd f) None)]) fs)).
Proof.
  induction fs as [|f fs IH]; intros N; [constructor|]. inversion N; subst. cbn. destruct (snd (fst f)); [apply IH; assumption|]. cbn. constructor; [|apply IH; assumption].
  intros H. apply H1. apply in_map_iff in H as [[k r] [E H]]. cbn in E. subst k. apply in_flat_map in H as [g [G H]]. destruct (snd (fst g)); [destruct H|]. destruct H as [H|[]]. injection H as H _. apply in_map_iff. exists g. auto.
Qed.

Lemma eval_none_good v : wf v -> eqr (eval v None) (eval v None).
Proof.
  induction v as [| |a|t|lo hi|ds IH|es r IHe IHr|fs rest IHf IHr] using val_ind'; intros W; try exact I.
  - exact (conj I (conj I (deq_atom a))).
  - cbn [eval]. apply pick_eqr. assert (K := wf_or ds W). clear W. induction ds as [|d ds IHd]; cbn; constructor.
    + split; [reflexivity|]. inversion IH; subst. apply H1, K. left. reflexivity.
    + apply IHd; [inversion IH; assumption|]. intros x Hx. apply K. right. exact Hx.
  - cbn [eval]. apply of_list_eqr. destruct (wf_list es r W) as [K _]. clear W. induction es as [|d es IHd]; cbn; constructor.
    + inversion IHe; subst. apply H1, K. left. reflexivity.
    + apply IHd; [inversion IHe; assumption|]. intros x Hx. apply K. right. exact Hx.
  - cbn [eval]. destruct (wf_struct fs rest W) as [N [K _]]. rewrite Forall_forall in IHf.
    assert (N' := nodup_regular fs N).
    apply of_struct_eqr; try exact N'.
    all: intros k r H; exists r; split; [exact H|]; apply in_regular in H as [f [Hf [_ E]]]; injection E as -> ->; apply IHf; auto.
Qed.


Lemma has_label_in k (df : list (string * data)) : has_label k df = false -> ~ In k (map fst df).
Proof.
  unfold has_label. intros H C. apply in_map_iff in C as [[k' x] [E C]]. cbn in E. subst k'.
  assert (T : existsb (fun kx : string * data => String.eqb k (fst kx)) df = true); [|congruence]. apply existsb_exists. exists (k, x). split; [exact C|]. apply String.eqb_refl.
Qed.
Lemma nodup_data fs rest df : NoDup (map flabel fs) -> NoDup (map fst df) ->
  NoDup (map fst (map (fun kx : string * data => (fst kx, eval_at fs rest (fst kx) (snd kx))) df
   ++ flat_map (fun f => if fopt f || has_label (flabel f) df then [] else [(flabel f, eval (snd f) None)]) fs)).
Proof.
  intros N D. rewrite map_app, map_map. cbn [fst]. generalize (eval_at fs rest). intros _. induction fs as [|f fs IH]; [cbn; rewrite app_nil_r; exact D|].
  inversion N; subst. cbn [flat_map]. destruct (fopt f || has_label (flabel f) df) eqn:E; [apply IH; assumption|].
  apply orb_false_iff in E as [_ E]. apply has_label_in in E. cbn [app map fst]. apply NoDup_Add with (a := flabel f) (l := map (fun x : string * data => fst x) df ++ map fst (flat_map (fun f => if fopt f || has_label (flabel f) df then [] else [(flabel f, eval (snd f) None)]) fs)).
  - apply Add_app.
  - split; [apply IH; assumption|]. intros C. apply in_app_iff in C as [C|C]; [exact (E C)|]. apply H1. apply in_map_iff in C as [[k r] [K C]]. cbn in K. subst k.
    apply in_flat_map in C as [g [G C]]. destruct (fopt g || has_label (flabel g) df); [destruct C|]. destruct C as [C|[]]. injection C as C _. apply in_map_iff. exists g. auto.
Qed.

(** Validation unifies the schema with the data in this order; the data that
    results is the data evaluation gives, up to the order of fields. *)
Lemma data_order s : wf s -> forall d, dwf d -> eqr (eval (unify s (embed d)) None) (eval s (Some d)).
Proof.
  induction s as [| |a|t|lo hi|ds IH|es r IHe IHr|fs rest IHf IHr] using val_ind'; intros W d D.
  - rewrite scalar_data_right by reflexivity. exact I.
  - rewrite unify_VTop_l, eval_embed. exact (conj D (conj D (deq_refl d D))).
  - rewrite scalar_data_right by reflexivity. cbn. destruct d; cbn; auto. destruct (atom_eqb a a0); [exact (conj I (conj I (deq_atom _)))|exact I].
  - rewrite scalar_data_right by reflexivity. cbn. destruct d; cbn; auto. destruct (type_has t a); [exact (conj I (conj I (deq_atom _)))|exact I].
  - rewrite scalar_data_right by reflexivity. cbn. destruct d as [[]| |]; cbn; auto. destruct (in_lo lo z && in_hi hi z); [exact (conj I (conj I (deq_atom (AInt z))))|exact I].
  - destruct (atom_not_or d) as [A [B C]]. rewrite unify_or_l by assumption.
    rewrite eval_mk_or, map_map. cbn [eval fst snd]. apply pick_eqr.
    assert (K := wf_or ds W). clear W. induction ds as [|x ds IHd]; cbn [map]; constructor.
    + split; [reflexivity|]. inversion IH; subst. cbn [snd]. apply H1; [|exact D]. apply K. left. reflexivity.
    + apply IHd; [inversion IH; assumption|]. intros y Hy. apply K. right. exact Hy.
  - destruct d as [b|l|df]; try exact I.
    cbn [embed]. rewrite unify_VList, eval_VList. apply wf_list in W as [We Wr]. apply dwf_list in D.
    assert (E : match unify_list r None es (map embed l), eval_list r es l with
                | Some u, Some v => Forall2 eqr (map (fun e => eval e None) u) v | None, None => True | _, _ => False end).
    { revert l D. induction es as [|e es IHes]; intros l D.
      - destruct l as [|x l]; [destruct r; constructor|]. destruct r as [u|]; [|exact I].
        change (Forall2 eqr (map (fun e => eval e None) (map (unify u) (map embed (x :: l)))) (map (fun y => eval u (Some y)) (x :: l))).
        induction D as [|y l' D1 D2 ID]; cbn [map]; constructor; [apply (IHr Wr y D1)|exact ID].
      - destruct l as [|x l]; [cbn; exact I|]. cbn [map unify_list eval_list].
        inversion IHe as [|? ? He IHe']; subst. inversion D as [|? ? D1 D2]; subst.
        assert (IH2 := IHes IHe' (fun y Hy => We y (or_intror Hy)) l D2).
        destruct (unify_list r None es (map embed l)) as [u|], (eval_list r es l) as [rs|]; cbn [map]; try exact IH2.
        constructor; [|exact IH2]. apply (He (We e (or_introl eq_refl)) x D1). }
    destruct (unify_list r None es (map embed l)) as [u|], (eval_list r es l) as [rs|]; try contradiction; [|exact I].
    rewrite eval_mk_list. cbn [eval]. apply of_list_eqr. exact E.
  - destruct d as [b|l|df]; try exact I.
    cbn [embed]. fold (emb_fields df). rewrite unify_VStruct, eval_mk_struct, eval_VStruct. cbn [eval].
    apply wf_struct in W as [N [Wf Wr]]. apply dwf_struct in D as [ND D]. rewrite Forall_forall in D, IHf.
    assert (NE : NoDup (map flabel (emb_fields df))) by (unfold emb_fields; rewrite map_map; cbn; exact ND).
    apply of_struct_eqr.
    + apply nodup_regular, nodup_unify; assumption.
    + apply nodup_data; assumption.
    + intros k r H. apply in_regular in H as [g [Hg [Ho E]]]. injection E as -> ->. apply in_app_iff in Hg as [Hg|Hg].
      * apply in_map_iff in Hg as [f [<- Hf]]. unfold unify_left in *. rewrite field_of_emb in *.
        destruct (lookup (flabel f) df) as [x|] eqn:L.
        -- apply lookup_some_in in L. cbn [fval snd flabel fst]. exists (eval_at fs rest (flabel f) x). split.
           ++ apply in_app_iff. left. apply in_map_iff. exists (flabel f, x). auto.
           ++ unfold eval_at. rewrite (field_of_in fs f N Hf). apply (IHf f Hf (Wf f Hf) x (D _ L)).
        -- cbn [fval snd flabel fst]. rewrite unify_VTop_r. exists (eval (snd f) None). split; [|apply eval_none_good, Wf, Hf].
           apply in_app_iff. right. apply in_flat_map. exists f. split; [exact Hf|]. unfold fopt in *. cbn in Ho. rewrite Ho, has_label_lookup. unfold flabel in *. rewrite L. left. reflexivity.
      * apply in_flat_map in Hg as [g' [Hg' Hg]]. apply in_map_iff in Hg' as [[k x] [<- Hx]].
        unfold unify_right in Hg. cbn [flabel fst snd fval] in Hg.
        destruct (field_of k fs) eqn:F; [contradiction|]. destruct Hg as [<-|[]]. cbn [fval snd flabel fst].
        exists (eval_at fs rest k x). split; [apply in_app_iff; left; apply in_map_iff; exists (k, x); auto|].
        unfold eval_at. rewrite F. destruct rest as [u|]; [|exact I]. apply (IHr Wr x (D _ Hx)).
    + intros k r H. apply in_app_iff in H as [H|H].
      * apply in_map_iff in H as [[k' x] [E Hx]]. cbn [fst snd] in E. injection E as -> <-. unfold eval_at. destruct (field_of k fs) as [f|] eqn:F.
        -- apply field_of_some in F as [Hf <-]. exists (eval (unify (fval f) (embed x)) None). split; [|apply (IHf f Hf (Wf f Hf) x (D _ Hx))].
           apply in_regular. exists (unify_left (emb_fields df) (Some VTop) f). split; [apply in_app_iff; left; apply in_map; exact Hf|].
           unfold unify_left. rewrite field_of_emb, (lookup_in df (flabel f) x ND Hx). cbn. split; [apply andb_false_r|reflexivity].
        -- exists (eval (match rest with Some u => unify u (embed x) | None => VBot end) None). split.
           ++ apply in_regular. exists (k, false, match rest with Some u => unify u (embed x) | None => VBot end). split; [|auto].
              apply in_app_iff. right. apply in_flat_map. exists (k, false, embed x). split; [apply in_map_iff; exists (k, x); auto|].
              unfold unify_right. cbn [flabel fst]. rewrite F. left. reflexivity.
           ++ destruct rest as [u|]; [|exact I]. apply (IHr Wr x (D _ Hx)).
      * apply in_flat_map in H as [f [Hf H]]. destruct (fopt f) eqn:Ho; [destruct H|]. destruct (has_label (flabel f) df) eqn:L; [destruct H|]. destruct H as [H|[]]. injection H as <- <-.
        rewrite has_label_lookup in L. exists (eval (snd f) None). split; [|apply eval_none_good, Wf, Hf].
        apply in_regular. exists (unify_left (emb_fields df) (Some VTop) f). split; [apply in_app_iff; left; apply in_map; exact Hf|].
        unfold unify_left. rewrite field_of_emb. destruct (lookup (flabel f) df); [discriminate|]. rewrite unify_VTop_r. cbn. auto.
Qed.

Lemma data_right_all s : wf s -> forall d, dwf d -> (con (eval (unify s (embed d)) None) <-> con (eval s (Some d))).
Proof. intros W d D. apply eqr_con, data_order; assumption. Qed.
