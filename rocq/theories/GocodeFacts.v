(** Proofs about Gocode.v: unions, bindings and postprocessing. *)
From Verif Require Import Prelude Strings Gocode GocodeProofs.
Local Open Scope string_scope.
Local Open Scope list_scope.

(** *** fixRawData *)

(** A declaration of a union wrapper named [n]; a method of a type [n]. *)
Definition wrapper (d : decl) (n : string) : Prop :=
  exists c ss ns, d = DGen c ss /\ In (SType n (TStruct [(ns, TSel "json" "RawMessage")])) ss.
Definition method_of (d : decl) (n : string) : Prop :=
  exists c l m sig ns t, d = DFunc c (Some l) m sig /\ In (ns, t) l /\ (t = TIdent n \/ t = TStar (TIdent n)).
(** A wrapper that has a method further down in the file. *)
Definition union (f : list decl) (n : string) : Prop :=
  exists a d m e b, f = a ++ d :: m ++ e :: b /\ wrapper d n /\ method_of e n.

(** The functions of generated code: methods of named types. *)
Definition plain_recv (f : field) : Prop :=
  exists n, snd f = TIdent n \/ snd f = TStar (TIdent n).
Definition plain_func (d : decl) : Prop :=
  match d with
  | DFunc _ None _ _ => False
  | DFunc _ (Some l) _ _ => Forall plain_recv l
  | DGen _ _ => True
  end.

Lemma mem_in n l : mem n l = true <-> In n l.
Proof.
  unfold mem. rewrite existsb_exists. split.
  - intros (m & Hm & E). apply String.eqb_eq in E. subst; auto.
  - intros H. exists n. split; auto. apply String.eqb_refl.
Qed.

Lemma raw_selector x y : String.eqb (x ++ "." ++ y)%string "json.RawMessage" = true <-> x = "json" /\ y = "RawMessage".
Proof.
  rewrite String.eqb_eq. split; [|intros [-> ->]; reflexivity].
  do 4 (destruct x as [|? x]; [cbn; intros E; inversion E; fail|]).
  destruct x as [|c x].
  - cbn. intros E. inversion E. auto.
  - intros E. exfalso. cbn in E. inversion E as [[E1 E2 E3 E4 E5 E6]]. clear E. subst.
    do 10 (destruct x as [|? x]; [cbn in E6; inversion E6; fail|]; cbn in E6; inversion E6 as [[X E6']]; clear E6; rename E6' into E6; clear X).
    destruct x; cbn in E6; discriminate.
Qed.

Lemma raw_spec_in s n : In n (raw_spec s) <-> exists ns, s = SType n (TStruct [(ns, TSel "json" "RawMessage")]).
Proof.
  split.
  - destruct s as [m t|ns t|p]; simpl; try (intros []; fail).
    destruct t as [| | | |fs| |]; try (intros []; fail).
    destruct fs as [|[ns t] [|]]; try (intros []; fail); destruct t; try (intros []; fail).
    destruct (String.eqb _ _) eqn:E; [|intros []]. intros [<-|[]].
    apply raw_selector in E. destruct E; subst. eauto.
  - intros (ns & ->). simpl. auto.
Qed.

Lemma wrapper_in c ss n : wrapper (DGen c ss) n <-> In n (flat_map raw_spec ss).
Proof.
  rewrite in_flat_map. split.
  - intros (c' & ss' & ns & E & H). injection E as <- <-. eexists. split; [exact H|].
    apply raw_spec_in. eauto.
  - intros (s & Hs & H). apply raw_spec_in in H. destruct H as (ns & ->). exists c, ss, ns. auto.
Qed.

Lemma raw_recv_ok raw l : forall ex, Forall plain_recv l ->
  exists ex', raw_recv raw ex l = Ok ex' /\
    forall n, In n ex' <-> In n ex \/ (In n raw /\ exists ns t, In (ns, t) l /\ (t = TIdent n \/ t = TStar (TIdent n))).
Proof.
  induction l as [|[ns t] l IH]; intros ex H.
  - exists ex. split; auto. intros n. split; auto. intros [|(_ & ? & ? & [] & _)]; auto.
  - inversion H as [|? ? [m Hm] Hl]; subst. simpl in Hm.
    assert (E : depoint t = TIdent m) by (destruct Hm; subst; auto).
    destruct (IH (if mem m raw then m :: ex else ex) Hl) as (ex' & E' & S).
    exists ex'. simpl. rewrite E. split; auto. intros n. rewrite S.
    assert (M : In n (if mem m raw then m :: ex else ex) <-> In n ex \/ (In n raw /\ m = n)).
    { destruct (mem m raw) eqn:M; simpl.
      - apply mem_in in M. split; [intros [->|]; auto|intros [|[? ->]]; auto].
      - split; auto. intros [|[X ->]]; auto. apply mem_in in X. congruence. }
    rewrite M. split.
    + intros [[X|[X ->]]|(X & a & b & Hi & Hb)]; auto; right; split; auto; [exists ns, t|exists a, b]; simpl; auto.
    + intros [X|(X & a & b & [Hi|Hi] & Hb)]; auto.
      * injection Hi as -> ->. left. right. split; auto.
        destruct Hm, Hb; subst; congruence.
      * right. split; auto. exists a, b. auto.
Qed.

Lemma raw_recv_panic raw l : forall ex, ~ Forall plain_recv l -> raw_recv raw ex l = Panic.
Proof.
  induction l as [|[ns t] l IH]; intros ex H; [destruct H; auto|].
  simpl. destruct (depoint t) eqn:D; auto. apply IH. intros F. apply H. constructor; auto.
  exists n. simpl. destruct t; simpl in D; subst; auto; discriminate.
Qed.

Lemma union_cons d f n : union (d :: f) n <-> (wrapper d n /\ exists e, In e f /\ method_of e n) \/ union f n.
Proof.
  split.
  - intros (a & d' & m & e & b & E & W & M). destruct a as [|a0 a]; simpl in E; injection E as -> ->.
    + left. split; auto. exists e. split; auto. apply in_or_app. simpl; auto.
    + right. exists a, d', m, e, b. auto.
  - intros [(W & e & Hi & M)|(a & d' & m & e & b & E & W & M)].
    + apply in_split in Hi. destruct Hi as (m & b & ->). exists [], d, m, e, b. auto.
    + exists (d :: a), d', m, e, b. subst. auto.
Qed.

Lemma plain_dec l : Forall plain_recv l \/ ~ Forall plain_recv l.
Proof.
  induction l as [|[ns t] l [H|H]]; auto.
  - assert ((exists n, t = TIdent n \/ t = TStar (TIdent n)) \/ ~ (exists n, t = TIdent n \/ t = TStar (TIdent n))) as [X|X].
    { destruct t as [n|u|u|k v|fs|x s|s]; try (right; intros (? & [E|E]); discriminate); [left; eauto|].
      destruct u; try (right; intros (? & [E|E]); discriminate). left; eauto. }
    + left. constructor; auto.
    + right. intros F. inversion F; subst. auto.
  - right. intros F. inversion F; subst. auto.
Qed.

Lemma raw_collect_ok f : forall raw ex, Forall plain_func f ->
  exists ex', raw_collect raw ex f = Ok ex' /\
    forall n, In n ex' <-> In n ex \/ (In n raw /\ exists e, In e f /\ method_of e n) \/ union f n.
Proof.
  induction f as [|d f IH]; intros raw ex H.
  - exists ex. split; auto. intros n. split; auto.
    intros [|[(_ & ? & [] & _)|(a & ? & ? & ? & ? & E & _)]]; auto. destruct a; discriminate.
  - inversion H as [|? ? P F]; subst. destruct d as [c ss|c [l|] m sig]; [| |destruct P].
    + destruct (IH (flat_map raw_spec ss ++ raw) ex F) as (ex' & E & S).
      exists ex'. split; auto. intros n. rewrite S, union_cons, in_app_iff, <- (wrapper_in c ss).
      assert (N : ~ method_of (DGen c ss) n) by (intros (? & ? & ? & ? & ? & ? & X & _); discriminate).
      split.
      * intros [X|[([X|X] & e & Hi & M)|X]]; auto.
        -- right; right; left. split; eauto.
        -- right; left. split; auto. exists e. simpl; auto.
      * intros [X|[(X & e & [Hi|Hi] & M)|[(X & e & Hi & M)|X]]]; auto.
        -- subst. tauto.
        -- right; left. split; eauto.
        -- right; left. split; eauto.
    + simpl in P. destruct (raw_recv_ok raw l ex P) as (ex1 & E1 & S1).
      destruct (IH raw ex1 F) as (ex' & E & S). exists ex'. simpl. rewrite E1. simpl. split; auto.
      intros n. rewrite S, S1, union_cons.
      assert (N : ~ wrapper (DFunc c (Some l) m sig) n) by (intros (? & ? & ? & X & _); discriminate).
      assert (M : method_of (DFunc c (Some l) m sig) n <->
                  exists ns t, In (ns, t) l /\ (t = TIdent n \/ t = TStar (TIdent n))).
      { split; [intros (? & ? & ? & ? & ns & t & X & Hi & Ht); injection X as <- <- <- <-; eauto|].
        intros (ns & t & Hi & Ht). exists c, l, m, sig, ns, t. auto. }
      split.
      * intros [[X|(X & Y)]|[(X & e & Hi & Y)|X]]; auto.
        -- right; left. split; auto. exists (DFunc c (Some l) m sig). split; [left; auto|apply M; auto].
        -- right; left. split; auto. exists e. split; [right; auto|auto].
      * intros [X|[(X & e & [Hi|Hi] & Y)|[(X & _)|X]]]; auto; [|right; left; split; eauto|tauto].
        subst. left. right. split; auto. apply M, Y.
Qed.

Lemma raw_collect_panic f : forall raw ex, ~ Forall plain_func f -> raw_collect raw ex f = Panic.
Proof.
  induction f as [|d f IH]; intros raw ex H; [destruct H; auto|].
  destruct d as [c ss|c [l|] m sig]; simpl; auto.
  - apply IH. intros F. apply H. constructor; simpl; auto.
  - destruct (plain_dec l) as [P|P].
    + destruct (raw_recv_ok raw l ex P) as (ex1 & E1 & _). rewrite E1. simpl. apply IH.
      intros F. apply H. constructor; auto.
    + rewrite raw_recv_panic; auto.
Qed.

Lemma plain_file_dec f : Forall plain_func f \/ ~ Forall plain_func f.
Proof.
  induction f as [|d f [H|H]]; auto.
  - destruct d as [c ss|c [l|] m sig].
    + left. constructor; simpl; auto.
    + destruct (plain_dec l); [left; constructor; auto|right; intros F; inversion F; auto].
    + right. intros F. inversion F; auto.
  - right. intros F. inversion F; auto.
Qed.

(** The loop. *)
Lemma nth_error_mid {A} (a : list A) x b : nth_error (a ++ x :: b) (length a) = Some x.
Proof. induction a; simpl; auto. Qed.
Lemma set_at_mid {A} (a : list A) x y b : set_at (length a) y (a ++ x :: b) = a ++ y :: b.
Proof. induction a; simpl; congruence. Qed.
Lemma remove_at_mid {A} (a : list A) x b : remove_at (length a) (a ++ x :: b) = Some (a ++ b).
Proof. induction a as [|z a IH]; simpl; auto. rewrite IH. auto. Qed.
Lemma remove_at_end {A} (a : list A) : remove_at (length a) a = None.
Proof. induction a as [|z a IH]; simpl; auto. rewrite IH. auto. Qed.

Lemma raw_loop_single ex rest : forall fuel a,
  (forall d, In d rest -> deletes ex d <= 1) -> length rest < fuel ->
  raw_loop fuel ex (a ++ rest) (length a) =
  Ok (a ++ map (raw_rewrite ex) (filter (fun d => Nat.eqb (deletes ex d) 0) rest)).
Proof.
  induction rest as [|d rest IH]; intros fuel a H Hf; (destruct fuel as [|fuel]; [lia|]).
  - simpl. rewrite app_nil_r. replace (nth_error a (length a)) with (@None decl); auto.
    symmetry. apply nth_error_None. lia.
  - cbn [raw_loop]. rewrite nth_error_mid, set_at_mid. simpl in Hf.
    assert (Hd := H d (or_introl eq_refl)). cbn [filter].
    destruct (deletes ex d) as [|[|k]] eqn:E; [| |lia].
    + cbn [remove_n Nat.eqb Nat.ltb Nat.leb]. rewrite Nat.sub_0_r.
      replace (a ++ raw_rewrite ex d :: rest) with ((a ++ [raw_rewrite ex d]) ++ rest) by (rewrite <- app_assoc; auto).
      replace (S (length a)) with (length (a ++ [raw_rewrite ex d])) by (rewrite app_length; simpl; lia).
      rewrite IH; [|intros; apply H; right; auto|lia]. simpl. rewrite <- app_assoc. auto.
    + cbn [remove_n]. rewrite remove_at_mid. cbn [Nat.eqb].
      replace (Nat.ltb (S (length a)) 1) with false by (symmetry; apply Nat.ltb_ge; lia).
      replace (S (length a) - 1) with (length a) by lia.
      apply IH; [intros; apply H; right; auto|lia].
Qed.

Lemma raw_loop_fuel ex : forall fuel f i, length f < i + fuel -> i <= length f -> raw_loop fuel ex f i <> OutOfFuel.
Proof.
  assert (L : forall A (l l' : list A) i, remove_at i l = Some l' -> length l = S (length l')).
  { intros A l. induction l as [|x l IH]; intros l' i; destruct i; simpl; try discriminate.
    - intros E; injection E as <-; auto.
    - destruct (remove_at i l) eqn:E; simpl; try discriminate. intros X; injection X as <-.
      simpl. f_equal. eapply IH; eauto. }
  assert (L' : forall A k i (l l' : list A), remove_n k i l = Some l' -> length l = k + length l').
  { intros A k i. induction k as [|k IH]; simpl; intros l l' E; [injection E as ->; auto|].
    destruct (remove_at i l) eqn:R; try discriminate. apply L in R. apply IH in E. lia. }
  assert (S' : forall A i (x : A) l, length (set_at i x l) = length l).
  { intros A i x l. revert i. induction l; intros []; simpl; auto. }
  induction fuel as [|fuel IH]; intros f i H Hi; [lia|].
  cbn [raw_loop]. destruct (nth_error f i) as [d|] eqn:E; [|discriminate].
  destruct (remove_n _ i _) as [f'|] eqn:R; [|discriminate].
  destruct (Nat.ltb (S i) (deletes ex d)) eqn:T; [discriminate|].
  apply Nat.ltb_ge in T. apply L' in R. rewrite S' in R.
  assert (i < length f) by (apply nth_error_Some; congruence).
  apply IH; lia.
Qed.

(** What the pass is for, given the union wrappers [u]: functions, wrappers and
    the nameless members of unions go, everything else stays in its place. *)
Definition goes (u : string -> Prop) (d : decl) : Prop :=
  match d with
  | DFunc _ _ _ _ => True
  | DGen c ss =>
      (exists c0 cs p, c = c0 :: cs /\ c0 = (p ++ "defines model for .")%string) \/
      (exists n t, In (SType n t) ss /\ u n)
  end.

(** No declaration is to go for two reasons. *)
Definition goes_once (u : string -> Prop) (d : decl) : Prop :=
  match d with
  | DFunc _ _ _ _ => True
  | DGen c ss =>
      (forall c0 cs p, c = c0 :: cs -> c0 = (p ++ "defines model for .")%string ->
         forall n t, In (SType n t) ss -> ~ u n) /\
      (forall a n t b n' t' r, ss = a ++ SType n t :: b ++ SType n' t' :: r -> u n -> u n' -> False)
  end.

Lemma has_suffix_spec s p : has_suffix s p = true <-> exists q, s = (q ++ p)%string.
Proof.
  induction s as [|c s IH]; cbn [has_suffix].
  - rewrite orb_false_r, String.eqb_eq. split; [intros <-; exists ""; auto|].
    intros ([|] & E); [auto|discriminate].
  - rewrite orb_true_iff, String.eqb_eq, IH. split.
    + intros [<-|(q & ->)]; [exists ""; auto|exists (String c q); auto].
    + intros ([|c' q] & E); [left; auto|right]. simpl in E. injection E as -> ->. eauto.
Qed.

Lemma nameless_spec c : nameless c = true <->
  exists c0 cs p, c = c0 :: cs /\ c0 = (p ++ "defines model for .")%string.
Proof.
  destruct c as [|c0 cs]; unfold nameless.
  - split; [discriminate|]. intros (? & ? & ? & E & _); discriminate.
  - rewrite has_suffix_spec. split; [intros (q & E); eauto 6|].
    intros (a & b & p & E & E'). injection E as <- <-. eauto.
Qed.

Lemma dead_spec ex ss :
  filter (raw_dead_spec ex) ss = [] <-> (forall n t, In (SType n t) ss -> ~ In n ex).
Proof.
  induction ss as [|s ss IH]; cbn [filter].
  - split; auto.
  - destruct (raw_dead_spec ex s) eqn:D.
    + split; [discriminate|]. intros H. destruct s; try discriminate. exfalso.
      apply (H name t); [left; auto|]. apply mem_in, D.
    + rewrite IH. split; intros H n t; [intros [->|Hi]|intros Hi]; eauto.
      * simpl in D. intros X. apply mem_in in X. congruence.
      * apply (H n t). right; auto.
Qed.

Lemma deletes_zero ex d : deletes ex d = 0 <-> ~ goes (fun n => In n ex) d.
Proof.
  destruct d as [c ss|]; simpl; [|split; [discriminate|tauto]].
  destruct (nameless c) eqn:N.
  - split; [discriminate|]. intros H. exfalso. apply H. left. apply nameless_spec, N.
  - simpl. assert (X : length (filter (raw_dead_spec ex) ss) = 0 <-> filter (raw_dead_spec ex) ss = []).
    { destruct (filter _ ss); simpl; split; auto; discriminate. }
    rewrite X, dead_spec. split.
    + intros H [Y|(n & t & Hi & Y)]; [apply nameless_spec in Y; congruence|]. eapply H; eauto.
    + intros H n t Hi Y. apply H. right. eauto.
Qed.

Lemma deletes_once ex d : goes_once (fun n => In n ex) d -> deletes ex d <= 1.
Proof.
  destruct d as [c ss|]; simpl; auto. intros (H1 & H2).
  assert (L : length (filter (raw_dead_spec ex) ss) <= 1).
  { destruct (filter (raw_dead_spec ex) ss) as [|s1 [|s2 r]] eqn:F; simpl; auto.
    exfalso.
    assert (Q : forall ss s1 s2 r, filter (raw_dead_spec ex) ss = s1 :: s2 :: r ->
      exists a n t b n' t' q, ss = a ++ SType n t :: b ++ SType n' t' :: q /\ In n ex /\ In n' ex).
    { clear. assert (Q1 : forall ss s r, filter (raw_dead_spec ex) ss = s :: r ->
        exists a n t q, ss = a ++ SType n t :: q /\ In n ex /\ filter (raw_dead_spec ex) q = r).
      { induction ss as [|x ss IH]; simpl; intros s r E; [discriminate|].
        destruct (raw_dead_spec ex x) eqn:D.
        - injection E as -> E. destruct s; try discriminate. simpl in D. apply mem_in in D.
          exists [], name, t, ss. auto.
        - destruct (IH _ _ E) as (a & n & t & q & -> & X). exists (x :: a), n, t, q. auto. }
      intros ss s1 s2 r E. apply Q1 in E. destruct E as (a & n & t & q & -> & X & E).
      apply Q1 in E. destruct E as (b & n' & t' & q' & -> & X' & _).
      exists a, n, t, b, n', t', q'. auto. }
    apply Q in F. destruct F as (a & n & t & b & n' & t' & q & E & X & X'). eapply H2; eauto. }
  destruct (nameless c) eqn:N; [|lia].
  apply nameless_spec in N. destruct N as (c0 & cs & p & E & E').
  assert (Z : filter (raw_dead_spec ex) ss = []) by (apply dead_spec; intros; eapply H1; eauto).
  rewrite Z. auto.
Qed.

(** [keeps f f' P]: [f'] is the list of the elements of [f] that satisfy [P], in
    order and related by [R]. *)
Inductive picked {A} (P : A -> Prop) (R : A -> A -> Prop) : list A -> list A -> Prop :=
| pk_nil : picked P R [] []
| pk_skip : forall x l l', ~ P x -> picked P R l l' -> picked P R (x :: l) l'
| pk_take : forall x y l l', P x -> R x y -> picked P R l l' -> picked P R (x :: l) (y :: l').

Lemma raw_single f :
  Forall plain_func f -> Forall (goes_once (union f)) f ->
  exists ex f', (forall n, In n ex <-> union f n) /\ fixRawData f = Ok f' /\
    picked (fun d => ~ goes (union f) d) (fun d d' => d' = raw_rewrite ex d) f f'.
Proof.
  intros P G. destruct (raw_collect_ok f [] [] P) as (ex & E & S).
  assert (S' : forall n, In n ex <-> union f n).
  { intros n. rewrite S. simpl. tauto. }
  exists ex. unfold fixRawData. rewrite E. cbn [bind].
  assert (W : forall d, goes (fun n => In n ex) d <-> goes (union f) d).
  { intros [c ss|]; simpl; [|tauto]. split; (intros [X|(n & t & Hi & X)]; [left; auto|right; exists n, t; split; auto; apply S'; auto]). }
  assert (W1 : forall d, goes_once (union f) d -> goes_once (fun n => In n ex) d).
  { intros [c ss|]; simpl; auto. intros (A & B). split.
    - intros c0 cs p X Y n t Hi Z. apply S' in Z. eapply A; eauto.
    - intros a n t b n' t' r X Y Z. apply S' in Y, Z. eapply B; eauto. }
  eexists. split; [exact S'|]. split.
  - apply (raw_loop_single ex f (Datatypes.S (length f)) []); [|lia].
    intros d Hd. apply deletes_once, W1. rewrite Forall_forall in G. auto.
  - simpl. assert (D : forall d, Nat.eqb (deletes ex d) 0 = true <-> ~ goes (union f) d).
    { intros d. rewrite Nat.eqb_eq, deletes_zero, W. tauto. }
    clear E S G P. revert D. generalize (union f). intros u D.
    assert (Dn : forall d, Nat.eqb (deletes ex d) 0 = false -> ~ ~ goes u d).
    { intros d X Y. apply D in Y. congruence. }
    clear S' W W1. induction f as [|d f IH]; cbn [filter map]; [constructor|].
    destruct (Nat.eqb (deletes ex d) 0) eqn:X.
    + cbn [map]. apply pk_take; auto. apply D; auto.
    + apply pk_skip; auto.
Qed.

(** References: the shapes of types that are searched for wrappers. *)
Fixpoint searched (u : string -> bool) (p : place) (t : gtype) : bool :=
  negb (existsb u (idents t)) ||
  match t with
  | TIdent _ => true
  | TStar v => match p with PField => searched u PTop v | _ => false end
  | TArray e => searched u PElt e
  | TMap k v => match p with PElt => false | _ => negb (existsb u (idents k)) && searched u PVal v end
  | TStruct fs => match p with PVal => false | _ => forallb (fun f => searched u PField (snd f)) fs end
  | TSel _ _ | TOther _ => true
  end.

Lemma nowhere u t : existsb u (idents t) = false -> forall n, In n (idents t) -> u n = false.
Proof.
  intros H n Hn. destruct (u n) eqn:E; auto.
  assert (existsb u (idents t) = true) by (apply existsb_exists; eauto). congruence.
Qed.

Lemma iterate_searched ex t : forall p, searched (fun n => mem n ex) p t = true ->
  iterate (withoutRawData ex) p t = rename (withoutRawData ex) t.
Proof.
  assert (C : forall t p, existsb (fun n => mem n ex) (idents t) = false ->
    iterate (withoutRawData ex) p t = rename (withoutRawData ex) t).
  { intros u p H. assert (X : forall n, In n (idents u) -> withoutRawData ex n = n).
    { intros n Hn. unfold withoutRawData. rewrite (nowhere _ _ H n Hn). auto. }
    rewrite iterate_id, rename_id; auto. }
  induction t using gtype_rect'; intros p Hs; auto.
  - destruct (existsb (fun n => mem n ex) (idents (TStar t))) eqn:E; [|apply C, E].
    cbn [searched] in Hs. rewrite E in Hs. simpl in Hs. destruct p; try discriminate. simpl. rewrite IHt; auto.
  - destruct (existsb (fun n => mem n ex) (idents (TArray t))) eqn:E; [|apply C, E].
    cbn [searched] in Hs. rewrite E in Hs. simpl in Hs. simpl. rewrite IHt; auto.
  - destruct (existsb (fun n => mem n ex) (idents (TMap t1 t2))) eqn:E; [|apply C, E].
    cbn [searched] in Hs. rewrite E in Hs. cbn [negb orb] in Hs.
    assert (K : existsb (fun n => mem n ex) (idents t1) = false -> rename (withoutRawData ex) t1 = t1).
    { intros H. apply rename_id. intros n Hn. unfold withoutRawData. rewrite (nowhere _ _ H n Hn). auto. }
    destruct p; try discriminate; apply andb_true_iff in Hs; destruct Hs as [H1 H2];
      apply negb_true_iff in H1; cbn [iterate rename]; rewrite K, IHt2; auto.
  - destruct (existsb (fun n => mem n ex) (idents (TStruct fs))) eqn:E; [|apply C, E].
    cbn [searched] in Hs. rewrite E in Hs. cbn [negb orb] in Hs.
    assert (K : forallb (fun f => searched (fun n => mem n ex) PField (snd f)) fs = true ->
       map (fun f => (fst f, iterate (withoutRawData ex) PField (snd f))) fs =
       map (fun f => (fst f, rename (withoutRawData ex) (snd f))) fs).
    { intros X. rewrite forallb_forall in X. rewrite Forall_forall in H.
      apply map_ext_in. intros f Hf. rewrite H; auto. }
    destruct p; try discriminate; cbn [iterate rename]; rewrite K; auto.
Qed.

(** The rewriting of a declaration that stays: in every type that is searched,
    exactly the references to wrappers become [any]. *)
Definition any_spec (ex : list string) (s : spec) : spec :=
  match s with
  | SType n t => SType n (rename (fun m => if mem m ex then "any" else m) t)
  | _ => s
  end.
Definition searched_spec (ex : list string) (s : spec) : bool :=
  match s with
  | SType _ t =>
      negb (existsb (fun n => mem n ex) (idents t)) ||
      match t with TStruct _ | TMap _ _ | TArray _ => searched (fun n => mem n ex) PTop t | _ => false end
  | _ => true
  end.

Lemma raw_rewrite_any ex c ss :
  forallb (searched_spec ex) ss = true -> (forall n t, In (SType n t) ss -> ~ In n ex) ->
  raw_rewrite ex (DGen c ss) = DGen c (map (any_spec ex) ss).
Proof.
  intros H N. simpl. f_equal. rewrite forallb_forall in H. apply map_ext_in. intros s Hs.
  specialize (H s Hs). destruct s as [n t| |]; auto. simpl.
  destruct (mem n ex) eqn:M; [apply mem_in in M; destruct (N _ _ Hs M)|].
  f_equal. unfold searched_spec in H.
  destruct (existsb (fun n => mem n ex) (idents t)) eqn:E.
  - destruct t; try discriminate; apply iterate_searched; auto.
  - assert (X : forall m, In m (idents t) -> withoutRawData ex m = m).
    { intros m Hm. unfold withoutRawData. rewrite (nowhere _ _ E m Hm). auto. }
    fold (withoutRawData ex). rewrite rename_id by exact X.
    destruct t; auto; apply iterate_id; auto.
Qed.

Lemma raw_panics f : ~ Forall plain_func f -> fixRawData f = Panic.
Proof. intros H. unfold fixRawData. rewrite raw_collect_panic; auto. Qed.

Lemma raw_total f : fixRawData f <> OutOfFuel /\ forall e, fixRawData f <> Err e.
Proof.
  unfold fixRawData. destruct (plain_file_dec f) as [P|P].
  - destruct (raw_collect_ok f [] [] P) as (ex & E & _). rewrite E. cbn [bind]. split.
    + apply raw_loop_fuel; simpl; lia.
    + intros e. generalize (S (length f)) 0. intros fuel. generalize f.
      induction fuel as [|k IH]; intros g i; simpl; [discriminate|].
      destruct (nth_error g i); [|discriminate]. destruct (remove_n _ _ _); [|discriminate].
      destruct (match deletes ex d with 0 => false | S m' => (i <? m')%nat end) eqn:X.
      * change (Nat.ltb (S i) (deletes ex d)) with (match deletes ex d with 0 => false | S m' => Nat.leb (S i) m' end).
        destruct (deletes ex d); try discriminate. unfold Nat.ltb in X. rewrite X. discriminate.
      * destruct (Nat.ltb (S i) (deletes ex d)); [discriminate|]. apply IH.
  - rewrite raw_collect_panic; auto. split; discriminate.
Qed.

Lemma goes_once_mono (u v : string -> Prop) f :
  (forall n, v n -> u n) -> Forall (goes_once u) f -> Forall (goes_once v) f.
Proof.
  intros H. apply Forall_impl. intros [c ss|]; simpl; auto. intros (A & B). split.
  - intros c0 cs p E E' n t Hi X. eapply A; eauto.
  - intros a n t b n' t' r E X Y. eapply B; eauto.
Qed.

Lemma union_collected f ex : Forall plain_func f -> raw_collect [] [] f = Ok ex -> forall n, union f n <-> In n ex.
Proof.
  intros P E n. destruct (raw_collect_ok f [] [] P) as (ex' & E' & S).
  rewrite E in E'. injection E' as <-. rewrite S. simpl. tauto.
Qed.

(** *** GenerateLineageBinding *)

Definition item_names (i : bitem) : list string :=
  match i with BFunc n _ => [n] | BEmbed _ n => [n] | BGuard _ => [] end.
(** The package-level names that the generated file declares and uses. *)
Definition binding_declares (l : list bitem) : list string := flat_map item_names l.
Definition binding_uses (l : list bitem) : list string :=
  flat_map (fun i => match i with BFunc _ c => c | BGuard n => [n] | BEmbed _ _ => [] end) l.

Definition the_config (c : option binding_config) : binding_config :=
  match c with Some c => c | None => no_binding_config end.

(** The name after the prefix. *)
Definition factory_suffix (title : string -> string) (name : string) (c : binding_config) : string :=
  if bc_suffix c then (if String.eqb (bc_title c) "" then title name else bc_title c) else "".

Definition exported_first (s : string) : Prop :=
  exists c r, s = String c r /\ (65 <= nat_of_ascii c <= 90)%nat.
Definition unexported_first (s : string) : Prop :=
  exists c r, s = String c r /\ (97 <= nat_of_ascii c <= 122)%nat.

(** The documented choice of names. *)
Definition base_name (title : string -> string) (name : string) (c : binding_config) : string :=
  let l := ("Lineage" ++ factory_suffix title name c)%string in
  match bc_assignee c, bc_private c with
  | Some _, _ => ("base" ++ l)%string
  | None, true => ("do" ++ l)%string
  | None, false => l
  end.
Definition factory_name (title : string -> string) (name : string) (c : binding_config) : string :=
  let l := ("Lineage" ++ factory_suffix title name c)%string in
  if bc_private c then ("do" ++ l)%string else l.

Section Binding.
  Variables title lower quote : string -> string.
  Variable name : string.
  Variable cfg : option binding_config.
  Let c := the_config cfg.
  Let items := generate_binding title lower quote name cfg.

  Lemma binding_items : items =
    (match bc_assignee c with Some _ => [BFunc (factory_name title name c) [base_name title name c]] | None => [] end)
    ++ [BFunc (base_name title name c) [("loadInstanceFor" ++ name)%string]]
    ++ (match bc_assignee c with Some _ => [BGuard (factory_name title name c)] | None => [] end)
    ++ [BGuard (base_name title name c)]
    ++ (if String.eqb (bc_embed c) "" then []
        else BEmbed (bc_embed c) ("themaFSFor" ++ name)%string ::
             (if String.eqb (bc_mod c) "" then []
              else [BFunc ("getThemaFSFor" ++ name)%string [("themaFSFor" ++ name)%string]]))
    ++ (if String.eqb (bc_loaddir c) "" then []
        else [BFunc ("loadInstanceFor" ++ name)%string [("getThemaFSFor" ++ name)%string]]).
  Proof.
    unfold items, generate_binding, template_items, binding_variables, base_name, factory_name,
      factory_suffix, c, the_config. cbn [bv_name bv_convergent bv_factory bv_base bv_gen_embed bv_embed bv_gen_fs bv_gen_loader].
    destruct cfg as [k|]; [destruct k as [em ld md ti cp su pr asg ta pk]|]; cbn;
      [|reflexivity].
    destruct asg; destruct pr; cbn; destruct (String.eqb em ""); destruct (String.eqb md "");
      destruct (String.eqb ld ""); reflexivity.
  Qed.

  Lemma binding_nodup : NoDup (binding_declares items).
  Proof.
    rewrite binding_items. unfold base_name, factory_name.
    destruct (bc_assignee c); destruct (bc_private c);
      destruct (String.eqb (bc_embed c) ""); destruct (String.eqb (bc_mod c) "");
      destruct (String.eqb (bc_loaddir c) ""); cbn;
      repeat (constructor; [cbn; intuition discriminate|]); constructor.
  Qed.

  Lemma binding_convergent : forall a, bc_assignee c = Some a ->
    In (BFunc (factory_name title name c) [base_name title name c]) items /\
    In (BFunc (base_name title name c) [("loadInstanceFor" ++ name)%string]) items /\
    factory_name title name c <> base_name title name c /\
    In (BGuard (factory_name title name c)) items /\ In (BGuard (base_name title name c)) items.
  Proof.
    intros a E. rewrite binding_items, E. cbn [app].
    split; [left; reflexivity|]. split; [right; left; reflexivity|].
    split; [|split; [right; right; left; reflexivity|right; right; right; left; reflexivity]].
    unfold factory_name, base_name. rewrite E. destruct (bc_private c); cbn; discriminate.
  Qed.

  Lemma binding_plain : bc_assignee c = None ->
    In (BFunc (base_name title name c) [("loadInstanceFor" ++ name)%string]) items /\
    base_name title name c = factory_name title name c /\
    In (BGuard (base_name title name c)) items /\
    forall f calls, In (BFunc f calls) items -> In (base_name title name c) calls -> False.
  Proof.
    intros E. rewrite binding_items, E. cbn [app].
    split; [left; reflexivity|]. split; [|split; [right; left; reflexivity|]].
    - unfold factory_name, base_name. rewrite E. destruct (bc_private c); auto.
    - unfold base_name. rewrite E. intros f calls.
      destruct (bc_private c);
      destruct (String.eqb (bc_embed c) ""); destruct (String.eqb (bc_mod c) "");
      destruct (String.eqb (bc_loaddir c) ""); cbn; intuition (try congruence);
        match goal with H : BFunc _ _ = BFunc _ _ |- _ => injection H as <- <-; cbn in *; intuition discriminate end.
  Qed.

  Lemma binding_exported :
    (bc_private c = true -> unexported_first (factory_name title name c)) /\
    (bc_private c = false -> exported_first (factory_name title name c)) /\
    (forall a, bc_assignee c = Some a -> unexported_first (base_name title name c)) /\
    (forall n, In n (binding_declares items) -> n <> factory_name title name c -> unexported_first n).
  Proof.
    assert (U : forall s, unexported_first ("do" ++ s)%string) by (intros; do 2 eexists; split; [reflexivity|cbn; lia]).
    assert (B : forall s, unexported_first ("base" ++ s)%string) by (intros; do 2 eexists; split; [reflexivity|cbn; lia]).
    assert (T : forall s, unexported_first ("themaFSFor" ++ s)%string) by (intros; do 2 eexists; split; [reflexivity|cbn; lia]).
    assert (G : forall s, unexported_first ("getThemaFSFor" ++ s)%string) by (intros; do 2 eexists; split; [reflexivity|cbn; lia]).
    assert (L : forall s, unexported_first ("loadInstanceFor" ++ s)%string) by (intros; do 2 eexists; split; [reflexivity|cbn; lia]).
    repeat split.
    - intros E. unfold factory_name. rewrite E. apply U.
    - intros E. unfold factory_name. rewrite E. do 2 eexists. split; [reflexivity|cbn; lia].
    - intros a E. unfold base_name. rewrite E. apply B.
    - rewrite binding_items. intros n Hn D.
      assert (X : n = base_name title name c -> unexported_first n).
      { intros ->. unfold base_name, factory_name in *. destruct (bc_assignee c); [apply B|].
        destruct (bc_private c); [apply U|congruence]. }
      unfold binding_declares in Hn. rewrite !flat_map_app in Hn.
      apply in_app_or in Hn. destruct Hn as [Hn|Hn]; [|
      apply in_app_or in Hn; destruct Hn as [Hn|Hn]; [|
      apply in_app_or in Hn; destruct Hn as [Hn|Hn]; [|
      apply in_app_or in Hn; destruct Hn as [Hn|Hn]; [|
      apply in_app_or in Hn; destruct Hn as [Hn|Hn]]]]].
      + destruct (bc_assignee c); cbn in Hn; [destruct Hn as [<-|[]]; congruence|destruct Hn].
      + cbn in Hn. destruct Hn as [<-|[]]. auto.
      + destruct (bc_assignee c); cbn in Hn; contradiction.
      + cbn in Hn. contradiction.
      + destruct (String.eqb (bc_embed c) ""); simpl in Hn; [destruct Hn|]. destruct Hn as [<-|Hn]; [apply T|].
        destruct (String.eqb (bc_mod c) ""); simpl in Hn; [destruct Hn|destruct Hn as [<-|[]]; apply G].
      + destruct (String.eqb (bc_loaddir c) ""); simpl in Hn; [destruct Hn|destruct Hn as [<-|[]]; apply L].
  Qed.

  (** What has to be written by hand. *)
  Lemma binding_missing n :
    (In n (binding_uses items) /\ ~ In n (binding_declares items)) <->
    (n = ("loadInstanceFor" ++ name)%string /\ bc_loaddir c = "") \/
    (n = ("getThemaFSFor" ++ name)%string /\ bc_loaddir c <> "" /\ (bc_embed c = "" \/ bc_mod c = "")).
  Proof.
    rewrite binding_items.
    assert (D1 : ("loadInstanceFor" ++ name)%string <> ("getThemaFSFor" ++ name)%string) by (cbn; discriminate).
    destruct (String.eqb_spec (bc_embed c) "") as [E1|E1];
      destruct (String.eqb_spec (bc_mod c) "") as [E2|E2];
      destruct (String.eqb_spec (bc_loaddir c) "") as [E3|E3];
      unfold base_name, factory_name; destruct (bc_assignee c); destruct (bc_private c); cbn;
      (split;
       [intros [Hu Hn]; intuition (subst; try congruence)
       |intros [[-> Hl]|(-> & Hl & He)]; try congruence; try tauto; (split; [tauto|]); intuition (try discriminate; try congruence)]).
  Qed.
End Binding.

(** *** PostprocessGoFile *)

Lemma added_spec before after p :
  In p (added_imports before after) <-> In p after /\ ~ In p before.
Proof.
  unfold added_imports. rewrite filter_In, negb_true_iff. split; intros [H1 H2]; split; auto.
  - intros X. apply mem_in in X. congruence.
  - destruct (mem p before) eqn:E; auto. apply mem_in in E. tauto.
Qed.

(** The appliers run one after the other, each on what the one before left. *)
Inductive ran {A} : list (A -> outcome A) -> A -> A -> Prop :=
| ran_all x : ran [] x x
| ran_next (a : A -> outcome A) l x y z : a x = Ok y -> ran l y z -> ran (a :: l) x z.

Lemma ran_iff A (l : list (A -> outcome A)) : forall x y, ran l x y <-> run_appliers l x = Ok y.
Proof.
  induction l as [|a l IH]; intros x y; cbn [run_appliers].
  - split; [inversion 1; reflexivity|intros [= ->]; constructor].
  - split.
    + inversion 1; subst. match goal with H : a x = Ok _ |- _ => rewrite H end. cbn [bind]. apply IH. assumption.
    + intros H. destruct (a x) as [z| | |] eqn:E; try discriminate H. cbn [bind] in H.
      econstructor; [exact E|]. apply IH. exact H.
Qed.

Lemma ran_stops A (l k : list (A -> outcome A)) (a : A -> outcome A) : forall x y,
  ran k x y -> (forall z, a y <> Ok z) -> run_appliers (k ++ a :: l) x = a y.
Proof.
  induction k as [|b k IH]; intros x y R H; cbn [run_appliers app].
  - inversion R; subst. destruct (a y) as [z| | |]; try reflexivity. destruct (H z eq_refl).
  - inversion R; subst. match goal with H : b x = Ok _ |- _ => rewrite H end. cbn [bind]. eapply IH; eassumption.
Qed.

(** The paths among [after] that are not among [before], in order. *)
Inductive news (before : list string) : list string -> list string -> Prop :=
| news_none : news before [] []
| news_old p r a : In p before -> news before r a -> news before (p :: r) a
| news_new p r a : ~ In p before -> news before r a -> news before (p :: r) (p :: a).

Lemma added_news before after : news before after (added_imports before after).
Proof.
  induction after as [|p r IH]; cbn [added_imports filter]; [constructor|].
  destruct (mem p before) eqn:E; cbn [negb].
  - apply news_old; [apply mem_in; exact E|exact IH].
  - apply news_new; [intros H; apply mem_in in H; congruence|exact IH].
Qed.

Lemma postprocess_exact g fname path appliers ignore inp gf gf' buf byt :
  go_parse g fname inp = Ok gf -> ran appliers gf gf' ->
  go_print g gf' = Ok buf -> go_imports g fname buf = Ok byt ->
  (ignore = true \/ incl (go_import_list g byt) (f_imports gf') ->
   postprocess g fname path appliers ignore inp = Ok byt) /\
  (ignore = false -> ~ incl (go_import_list g byt) (f_imports gf') ->
   exists added, news (f_imports gf') (go_import_list g byt) added /\
     postprocess g fname path appliers ignore inp = Err (mkErr []
       ("goimports added the following import statements to " ++ path ++ ": " ++ next_line ++
        String.concat next_line added ++ String (ascii_of_nat 10) EmptyString ++
        "Relying on goimports to find imports significantly slows down code generation. Either add these imports with an AST manipulation in cfg.ApplyFuncs, or set cfg.IgnoreDiscoveredImports to true")%string)).
Proof.
  intros E1 E2 E3 E4. apply ran_iff in E2. unfold postprocess. rewrite E1. cbn [errorf bind]. rewrite E2. cbn [bind].
  rewrite E3. cbn [errorf bind]. rewrite E4. cbn [errorf bind]. split.
  - intros [->|H]; auto. destruct ignore; auto.
    destruct (added_imports _ _) as [|p r] eqn:A; auto.
    assert (In p (added_imports (f_imports gf') (go_import_list g byt))) by (rewrite A; left; auto).
    apply added_spec in H0. destruct H0 as [X Y]. destruct (Y (H _ X)).
  - intros -> H. exists (added_imports (f_imports gf') (go_import_list g byt)).
    split; [apply added_news|]. destruct (added_imports _ _) as [|p r] eqn:A; [|reflexivity].
    exfalso. apply H. intros p Hp. destruct (in_dec string_dec p (f_imports gf')); auto.
    assert (In p (added_imports (f_imports gf') (go_import_list g byt))) by (apply added_spec; auto).
    rewrite A in H0. destruct H0.
Qed.

(** When the appliers keep [Imports] in step with what is printed, the check is
    about what goimports did. *)
Lemma postprocess_sync g fname path appliers inp gf gf' buf byt :
  go_parse g fname inp = Ok gf -> ran appliers gf gf' ->
  go_print g gf' = Ok buf -> go_imports g fname buf = Ok byt ->
  (forall p, In p (f_imports gf') <-> In p (go_import_list g buf)) ->
  (postprocess g fname path appliers false inp = Ok byt <->
   incl (go_import_list g byt) (go_import_list g buf)) /\
  (postprocess g fname path appliers false inp = Ok byt \/
   exists e, postprocess g fname path appliers false inp = Err e).
Proof.
  intros E1 E2 E3 E4 S.
  destruct (postprocess_exact g fname path appliers false inp gf gf' buf byt E1 E2 E3 E4) as [P N].
  assert (D : incl (go_import_list g byt) (f_imports gf') \/ ~ incl (go_import_list g byt) (f_imports gf')).
  { generalize (go_import_list g byt). intros l. induction l as [|p l [H|H]].
    - left. intros ? [].
    - destruct (in_dec string_dec p (f_imports gf')).
      + left. apply incl_cons; auto.
      + right. intros X. apply n, X. left; auto.
    - right. intros X. apply H. intros q Hq. apply X. right; auto. }
  assert (I : incl (go_import_list g byt) (f_imports gf') <-> incl (go_import_list g byt) (go_import_list g buf)).
  { split; intros H p Hp; apply S, H, Hp. }
  rewrite <- I. split.
  - split; auto. intros H. destruct D as [D|D]; auto.
    destruct (N eq_refl D) as (a & _ & E). congruence.
  - destruct D as [D|D]; auto. right. destruct (N eq_refl D) as (a & _ & E). eauto.
Qed.

Lemma postprocess_stops g fname path appliers ignore inp :
  (forall e, go_parse g fname inp = Err e ->
     postprocess g fname path appliers ignore inp =
     Err (mkErr (e_marks e) ("error parsing generated file: " ++ e_text e)%string)) /\
  (forall gf k a l gf' , go_parse g fname inp = Ok gf -> appliers = k ++ a :: l -> ran k gf gf' ->
     (forall e, a gf' = Err e -> postprocess g fname path appliers ignore inp = Err e) /\
     (a gf' = Panic -> postprocess g fname path appliers ignore inp = Panic)) /\
  (forall gf gf' e, go_parse g fname inp = Ok gf -> ran appliers gf gf' -> go_print g gf' = Err e ->
     postprocess g fname path appliers ignore inp =
     Err (mkErr (e_marks e) ("error formatting generated file: " ++ e_text e)%string)) /\
  (forall gf gf' buf e, go_parse g fname inp = Ok gf -> ran appliers gf gf' ->
     go_print g gf' = Ok buf -> go_imports g fname buf = Err e ->
     postprocess g fname path appliers ignore inp =
     Err (mkErr (e_marks e) ("goimports processing of generated file failed: " ++ e_text e)%string)).
Proof.
  unfold postprocess. split; [|split; [|split]].
  - intros e ->. reflexivity.
  - intros gf k a l gf' -> -> R. cbn [errorf bind].
    split; [intros e H|intros H]; rewrite (ran_stops _ _ _ _ _ _ R) by (rewrite H; discriminate); rewrite H; reflexivity.
  - intros gf gf' e -> H. apply ran_iff in H. cbn [errorf bind]. rewrite H. cbn [bind]. intros ->. reflexivity.
  - intros gf gf' buf e -> H. apply ran_iff in H. cbn [errorf bind]. rewrite H. cbn [bind]. intros -> . cbn [errorf bind]. intros ->. reflexivity.
Qed.

(** The package name handed to the generator. *)
Lemma types_package g san e cfg doc :
  te_openapi e = Ok doc ->
  let c := match cfg with Some c => c | None => no_type_config end in
  let pkg := match tc_package c with "" => te_name e | p => p end in
  let file := (te_name e ++ "_type_gen.go")%string in
  (forall src, te_codegen e pkg doc = Ok src ->
     fst (types_openapi g san e cfg) =
     postprocess g (san file) file
       (on_decls (fun f => Ok (depointerizer (tc_no_optional_pointers c) f)) ::
        on_decls fixRawData :: on_decls fixUnderscoreInTypeName ::
        (if tc_decl_in_comments c then [] else [te_todo e]) ++ tc_apply c)
       (tc_ignore_imports c) src) /\
  (forall x, te_codegen e pkg doc = Err x ->
     fst (types_openapi g san e cfg) =
     Err (mkErr (e_marks x) ("openapi generation failed: " ++ e_text x)%string)) /\
  (forall k, cfg = Some k -> exists k', snd (types_openapi g san e cfg) = Some k' /\ tc_package k' = pkg).
Proof.
  intros H c pkg file. unfold types_openapi. rewrite H. fold c.
  assert (P : (if String.eqb (tc_package c) "" then te_name e else tc_package c) = pkg).
  { unfold pkg. destruct (tc_package c); reflexivity. }
  rewrite P. split; [|split].
  - intros src ->. reflexivity.
  - intros x ->. reflexivity.
  - intros k ->. eexists. split; reflexivity.
Qed.

(** *** Settings of a binding *)

Lemma string_eqb_empty (x : string) (A : Type) (a b : A) : x <> "" -> (if String.eqb x "" then a else b) = b.
Proof. intros H. apply String.eqb_neq in H. rewrite H. reflexivity. Qed.

Lemma prefix_empty (s : string) : prefix "" s = true.
Proof. destruct s; reflexivity. Qed.
Lemma substring_all (s : string) : substring 0 (String.length s) s = s.
Proof. induction s as [|a s IH]; [reflexivity|]. cbn. rewrite IH. reflexivity. Qed.

Lemma binding_settings :
  forall title lower quote name cfg, (forall x, quote x <> "") ->
    let c := the_config cfg in
    let t := generate_binding_text title lower quote name cfg in
    (bc_package c = "" -> bt_package t = lower name) /\
    (bc_package c <> "" -> bt_package t = bc_package c) /\
    bt_lookup t = Some (quote (bc_cuepath c)) /\
    (bc_assignee c = None -> bt_bind t = None) /\
    (forall p, bc_assignee c = Some ("*" ++ p)%string ->
       bt_bind t = Some (("*" ++ p)%string, bc_target c, ("new(" ++ p ++ ")")%string)) /\
    (forall a, bc_assignee c = Some a -> (forall p, a <> ("*" ++ p)%string) ->
       bt_bind t = Some (a, bc_target c, (a ++ "{}")%string)) /\
    (forall p, bt_embed t = Some p <-> p = bc_embed c /\ p <> "") /\
    (forall m, bt_module t = Some m <-> m = bc_mod c /\ m <> "" /\ bc_embed c <> "") /\
    (forall d, bt_loaddir t = Some d <-> d = bc_loaddir c /\ d <> "").
Proof.
  intros title lower quote name cfg Q. cbv zeta.
  change (generate_binding_text title lower quote name cfg)
    with (template_text (binding_variables title lower quote name cfg) (the_config cfg)).
  unfold template_text, binding_variables.
  change (match cfg with Some c => c | None => no_binding_config end) with (the_config cfg).
  cbn [bv_package bv_cuepath bv_convergent bv_init bv_gen_embed bv_embed bv_gen_fs bv_mod bv_gen_loader bv_loaddir
       bt_package bt_lookup bt_bind bt_embed bt_module bt_loaddir].
  set (c := the_config cfg).
  assert (O : forall x y : string, (if negb (String.eqb x "") then Some x else None) = Some y <-> y = x /\ y <> "").
  { intros x y. destruct (String.eqb_spec x "") as [E|E]; cbn [negb]; split.
    - discriminate.
    - intros [-> H]. contradiction.
    - intros H. injection H as <-. auto.
    - intros [-> _]. reflexivity. }
  split; [intros ->; reflexivity|]. split; [intros H; apply string_eqb_empty; exact H|].
  split; [apply string_eqb_empty, Q|]. split; [intros ->; reflexivity|]. split.
  { intros p ->. cbn [append]. unfold has_prefix. cbn [prefix]. rewrite prefix_empty.
    destruct (Ascii.ascii_dec _ _); [|congruence].
    cbn [substring String.length Nat.sub]. rewrite Nat.sub_0_r, substring_all. reflexivity. }
  split.
  { intros a Ha Hp. rewrite Ha. destruct a as [|x a]; [reflexivity|].
    unfold has_prefix. cbn [prefix]. destruct (Ascii.ascii_dec "*" x) as [E|E]; [|reflexivity].
    exfalso. apply (Hp a). rewrite <- E. reflexivity. }
  split; [apply O|]. split; [|apply O].
  intros m. destruct (String.eqb_spec (bc_embed c) "") as [E|E]; cbn [negb andb].
  - split; [discriminate|]. intros [_ [_ H]]. contradiction.
  - rewrite O. tauto.
Qed.
