(** Proofs about Once.v. *)
From Verif Require Import Prelude Once.
Local Open Scope string_scope.
Local Open Scope list_scope.

Arguments Made {inst}. Arguments NilContext {inst}. Arguments LoadFailed {inst}. Arguments NilInstance {inst}.
Arguments Start {inst}. Arguments Look {inst}. Arguments Lock {inst}. Arguments Check {inst}. Arguments Overlay {inst}.
Arguments Load {inst}. Arguments Validate {inst}. Arguments SetDone {inst}. Arguments Unlock {inst}. Arguments Return {inst}.
Arguments Build {inst}. Arguments Ended {inst}.
Arguments calls {inst}. Arguments done_ {inst}. Arguments mutex {inst}. Arguments themaBI {inst}. Arguments loads {inst}.
Arguments step {inst}. Arguments run {inst}. Arguments start {inst}. Arguments move {inst}. Arguments set_at {inst}. Arguments mkWorld {inst}.

Section Proofs.
Variable inst : Type.
Variable invalid : inst -> option string.
Variable overlay : option string.
Notation world := (world inst).
Notation at_ := (at_ inst).
Notation step := (step invalid overlay).
Notation run := (run invalid overlay).

Lemma nth_set i p : forall l : list at_, i < length l -> nth_error (set_at i p l) i = Some p.
Proof. induction i as [|i IH]; intros [|q l] L; cbn in *; try lia; [reflexivity|]. apply IH. lia. Qed.
Lemma nth_set_ne i j p : i <> j -> forall l : list at_, nth_error (set_at i p l) j = nth_error l j.
Proof.
  revert j. induction i as [|i IH]; intros [|j] D [|q l]; cbn; try reflexivity; try congruence. apply IH. congruence.
Qed.
Lemma length_set i p : forall l : list at_, length (set_at i p l) = length l.
Proof. induction i as [|i IH]; intros [|q l]; cbn; try reflexivity. rewrite IH. reflexivity. Qed.
Lemma nth_bound {A} (l : list A) i x : nth_error l i = Some x -> i < length l.
Proof. intros H. apply nth_error_Some. congruence. Qed.

(** Goroutines that hold the mutex. *)
Definition holds (p : at_) : bool :=
  match p with Check _ | Overlay _ | Load _ | Validate _ | SetDone _ _ | Unlock _ _ => true | _ => false end.

(** The context a goroutine was called with. *)
Definition of_ctx (p : at_) (c : option nat) : Prop :=
  match p with
  | Start d => c = d
  | Look d | Lock d | Check d | Overlay d | Load d | Validate d | SetDone d _ | Unlock d _ | Return d | Build d _ => c = Some d
  | Ended (Made d _) => c = Some d
  | Ended NilContext => c = None
  | Ended (LoadFailed _) | Ended NilInstance => c <> None
  end.

(** Where a goroutine can be before anything is loaded, while it is, and after. *)
Definition early (w : world) (p : at_) : Prop :=
  match p with
  | Start _ | Look _ | Lock _ | Ended NilContext => True
  | Check _ | Overlay _ => themaBI w = None /\ loads w = 0
  | Load _ => themaBI w = None /\ loads w = 0 /\ overlay = None
  | Validate _ => themaBI w <> None /\ loads w = 1 /\ overlay = None
  | SetDone _ None => exists x, themaBI w = Some x /\ invalid x = None /\ loads w = 1 /\ overlay = None
  | SetDone _ (Some e) => (themaBI w = None /\ overlay = Some e /\ loads w = 0) \/
      (exists x, themaBI w = Some x /\ invalid x = Some e /\ loads w = 1 /\ overlay = None)
  | Unlock _ _ | Return _ | Build _ _ | Ended _ => False
  end.
Definition late (w : world) (p : at_) : Prop :=
  match p with
  | Start _ | Look _ | Lock _ | Check _ | Return _ | Unlock _ None | Ended NilContext => True
  | Overlay _ | Load _ | Validate _ | SetDone _ _ => False
  | Unlock _ (Some e) | Ended (LoadFailed e) =>
      (themaBI w = None /\ overlay = Some e) \/ (exists x, themaBI w = Some x /\ invalid x = Some e /\ overlay = None)
  | Build _ b => b = themaBI w
  | Ended (Made _ x) => themaBI w = Some x
  | Ended NilInstance => themaBI w = None
  end.
Definition load_failed (p : at_) : Prop :=
  match p with Unlock _ (Some _) | Ended (LoadFailed _) => True | _ => False end.

Record inv (ctxs : list (option nat)) (w : world) : Prop := {
  i_len : length (calls w) = length ctxs;
  i_ctx : forall i p, nth_error (calls w) i = Some p -> exists c, nth_error ctxs i = Some c /\ of_ctx p c;
  i_mutex : forall i p, nth_error (calls w) i = Some p -> (holds p = true <-> mutex w = Some i);
  i_holder : forall i, mutex w = Some i -> i < length (calls w);
  i_early : done_ w = false -> forall i p, nth_error (calls w) i = Some p -> early w p;
  i_free : done_ w = false -> mutex w = None -> themaBI w = None /\ loads w = 0;
  i_late : done_ w = true -> forall i p, nth_error (calls w) i = Some p -> late w p;
  i_loads : loads w <= 1;
  i_bi : themaBI w = None <-> loads w = 0;
  i_over : done_ w = true -> (themaBI w = None <-> overlay <> None);
  i_one : forall i j p q, nth_error (calls w) i = Some p -> nth_error (calls w) j = Some q ->
    load_failed p -> load_failed q -> i = j;
  i_some : done_ w = true -> (exists e, overlay = Some e) \/ (exists x e, themaBI w = Some x /\ invalid x = Some e) ->
    exists i p, nth_error (calls w) i = Some p /\ load_failed p
}.

Lemma inv_start ctxs : inv ctxs (start ctxs).
Proof.
  assert (S : forall i p, nth_error (calls (start ctxs)) i = Some p -> exists c, nth_error ctxs i = Some c /\ p = Start (inst := inst) c).
  { unfold start. cbn [calls]. intros i p H. rewrite nth_error_map in H. destruct (nth_error ctxs i) as [c|]; [|discriminate H].
    injection H as <-. eauto. }
  constructor; cbn [start done_ mutex themaBI loads]; try (intros; discriminate).
  - apply map_length.
  - intros i p H. destruct (S i p H) as (c & E & ->). exists c. split; [exact E|reflexivity].
  - intros i p H. destruct (S i p H) as (c & E & ->). cbn. split; discriminate.
  - intros _ i p H. destruct (S i p H) as (c & E & ->). exact I.
  - intros _ _. split; reflexivity.
  - lia.
  - tauto.
  - intros i j p q H. destruct (S i p H) as (c & E & ->). intros _ [].
Qed.

(** A goroutine moves, and nothing else changes. *)
Lemma move_cases i p q (w : world) j r : nth_error (calls w) i = Some q -> nth_error (set_at i p (calls w)) j = Some r ->
  (j = i /\ r = p) \/ (j <> i /\ nth_error (calls w) j = Some r).
Proof.
  intros Q H. destruct (Nat.eq_dec i j) as [<-|D].
  - rewrite nth_set in H by (eapply nth_bound; exact Q). injection H as <-. left. tauto.
  - rewrite nth_set_ne in H by exact D. right. split; [congruence|exact H].
Qed.

Lemma inv_move ctxs i p q (w : world) : inv ctxs w -> nth_error (calls w) i = Some q -> holds p = holds q ->
  (forall c, of_ctx q c -> of_ctx p c) -> (done_ w = false -> early w p) -> (done_ w = true -> late w p) ->
  (load_failed p <-> load_failed q) -> inv ctxs (move i p w).
Proof.
  intros V Q H C E L F. assert (B := nth_bound _ _ _ Q).
  assert (M := fun j r => move_cases i p q w j r Q).
  constructor; unfold move; cbn [calls done_ mutex themaBI loads]; try apply V.
  - rewrite length_set. apply V.
  - intros j r N. destruct (M j r N) as [[-> ->]|[_ N']]; [|exact (i_ctx _ _ V j r N')].
    destruct (i_ctx _ _ V i q Q) as (c & N1 & O). exists c. split; [exact N1|exact (C c O)].
  - intros j r N. destruct (M j r N) as [[-> ->]|[_ N']]; [|exact (i_mutex _ _ V j r N')]. rewrite H. exact (i_mutex _ _ V i q Q).
  - intros j N. rewrite length_set. exact (i_holder _ _ V j N).
  - intros D j r N. destruct (M j r N) as [[-> ->]|[_ N']]; [exact (E D)|exact (i_early _ _ V D j r N')].
  - intros D j r N. destruct (M j r N) as [[-> ->]|[_ N']]; [exact (L D)|exact (i_late _ _ V D j r N')].
  - intros j k r s N1 N2 F1 F2. destruct (M j r N1) as [[-> ->]|[D1 N1']], (M k s N2) as [[-> ->]|[D2 N2']]; try reflexivity.
    + exact (i_one _ _ V i k q s Q N2' (proj1 F F1) F2).
    + exact (i_one _ _ V j i r q N1' Q F1 (proj1 F F2)).
    + exact (i_one _ _ V j k r s N1' N2' F1 F2).
  - intros D X. destruct (i_some _ _ V D X) as (j & r & N & G). destruct (Nat.eq_dec i j) as [<-|D'].
    + exists i, p. split; [apply nth_set, B|]. apply F. congruence.
    + exists j, r. split; [rewrite nth_set_ne by exact D'; exact N|exact G].
Qed.

Lemma inv_step ctxs i x w w' : inv ctxs w -> step i x w = Some w' -> inv ctxs w'.
Proof.
  intros V. unfold Once.step. destruct (nth_error (calls w) i) as [q|] eqn:Q; [|discriminate].
  assert (B := nth_bound _ _ _ Q). assert (ME := i_mutex _ _ V i q Q).
  assert (EA := fun D => i_early _ _ V D i q Q). assert (LA := fun D => i_late _ _ V D i q Q).
  destruct q as [[c|]|c|c|c|c|c|c|c p|c p|c|c b|r]; try discriminate.
  - intros [= <-]. eapply inv_move; try eassumption; try reflexivity; cbn; auto; tauto.
  - intros [= <-]. eapply inv_move; try eassumption; try reflexivity; cbn; auto; tauto.
  - intros [= <-]. eapply inv_move; try eassumption; destruct (done_ w) eqn:D; cbn; auto; try discriminate; tauto.
  - (* the mutex *)
    destruct (mutex w) as [j|] eqn:Mu; [discriminate|]. intros [= <-].
    assert (M := fun j r => move_cases i (Check c) (Lock c) w j r Q).
    constructor; cbn [calls done_ mutex themaBI loads move]; try apply V.
    + rewrite length_set. apply V.
    + intros j r N. destruct (M j r N) as [[-> ->]|[_ N']]; [exact (i_ctx _ _ V i _ Q)|exact (i_ctx _ _ V j r N')].
    + intros j r N. destruct (M j r N) as [[-> ->]|[D N']]; [cbn; tauto|].
      assert (X := i_mutex _ _ V j r N'). rewrite Mu in X. split; [intros Y; apply X in Y; discriminate Y|congruence].
    + intros j [= <-]. rewrite length_set. exact B.
    + intros D j r N. destruct (M j r N) as [[-> ->]|[_ N']]; [|exact (i_early _ _ V D j r N')]. exact (i_free _ _ V D Mu).
    + intros _ X. discriminate X.
    + intros D j r N. destruct (M j r N) as [[-> ->]|[_ N']]; [exact I|exact (i_late _ _ V D j r N')].
    + intros j k r s N1 N2 F1 F2. destruct (M j r N1) as [[-> ->]|[D1 N1']], (M k s N2) as [[-> ->]|[D2 N2']]; try (destruct F1; fail); try (destruct F2; fail); try reflexivity.
      exact (i_one _ _ V j k r s N1' N2' F1 F2).
    + intros D X. destruct (i_some _ _ V D X) as (j & r & N & G). exists j, r. split; [|exact G].
      rewrite nth_set_ne; [exact N|]. intros <-. rewrite Q in N. injection N as <-. destruct G.
  - intros [= <-]. eapply inv_move; try eassumption; destruct (done_ w) eqn:D; cbn in *; auto; try discriminate; try tauto.
  - intros [= <-]. destruct (done_ w) eqn:D; [destruct (LA eq_refl)|]. destruct (EA eq_refl) as [E1 E2].
    eapply inv_move; try eassumption; destruct overlay as [e|] eqn:O; cbn in *; auto; try congruence; try tauto.
  - (* loading *)
    destruct (done_ w) eqn:D; [destruct (LA eq_refl)|]. destruct (EA eq_refl) as (E1 & E2 & E3). intros [= <-].
    assert (Mu : mutex w = Some i) by (apply ME; reflexivity).
    assert (M := fun j r => move_cases i (Validate c) (Load c) w j r Q).
    assert (Others : forall j r, j <> i -> nth_error (calls w) j = Some r -> holds r = false).
    { intros j r J N. destruct (holds r) eqn:H; [|reflexivity]. apply (i_mutex _ _ V j r N) in H. congruence. }
    constructor; cbn [calls done_ mutex themaBI loads move]; try apply V.
    + rewrite length_set. apply V.
    + intros j r N. destruct (M j r N) as [[-> ->]|[_ N']]; [exact (i_ctx _ _ V i _ Q)|exact (i_ctx _ _ V j r N')].
    + intros j r N. destruct (M j r N) as [[-> ->]|[_ N']]; [exact ME|exact (i_mutex _ _ V j r N')].
    + intros j N. rewrite length_set. exact (i_holder _ _ V j N).
    + intros _ j r N. destruct (M j r N) as [[-> ->]|[J N']].
      * cbn. split; [discriminate|]. split; [rewrite E2; reflexivity|exact E3].
      * assert (A := i_early _ _ V D j r N'). assert (Hn := Others j r J N'). destruct r as [| | | | | | |? []|? []| | |[]]; cbn in *; try exact A; discriminate Hn.
    + congruence.
    + congruence.
    + lia.
    + split; [discriminate|]. intros X. discriminate X.
    + congruence.
    + intros j k r s N1 N2 F1 F2. destruct (M j r N1) as [[-> ->]|[D1 N1']], (M k s N2) as [[-> ->]|[D2 N2']]; try (destruct F1; fail); try (destruct F2; fail); try reflexivity.
      exact (i_one _ _ V j k r s N1' N2' F1 F2).
    + congruence.
  - intros [= <-]. destruct (done_ w) eqn:D; [destruct (LA eq_refl)|]. destruct (EA eq_refl) as (E1 & E2 & E3).
    destruct (themaBI w) as [y|] eqn:T; [|congruence].
    eapply inv_move; try eassumption; cbn; auto; try congruence; try tauto.
    intros _. destruct (invalid y) as [e|] eqn:IV; [right|]; exists y; auto.
  - (* the flag *)
    destruct (done_ w) eqn:D; [destruct (LA eq_refl)|]. assert (E := EA eq_refl). intros [= <-].
    assert (Mu : mutex w = Some i) by (apply ME; reflexivity).
    assert (M := fun j r => move_cases i (Unlock c p) (SetDone c p) w j r Q).
    assert (Others : forall j r, j <> i -> nth_error (calls w) j = Some r -> holds r = false).
    { intros j r J N. destruct (holds r) eqn:H; [|reflexivity]. apply (i_mutex _ _ V j r N) in H. congruence. }
    assert (NF : forall j r, nth_error (calls w) j = Some r -> ~ load_failed r).
    { intros j r N G. assert (A := i_early _ _ V D j r N). destruct r as [| | | | | | |? []|? []| | |[]]; cbn in *; tauto. }
    constructor; cbn [calls done_ mutex themaBI loads move]; try apply V.
    + rewrite length_set. apply V.
    + intros j r N. destruct (M j r N) as [[-> ->]|[_ N']]; [exact (i_ctx _ _ V i _ Q)|exact (i_ctx _ _ V j r N')].
    + intros j r N. destruct (M j r N) as [[-> ->]|[_ N']]; [exact ME|exact (i_mutex _ _ V j r N')].
    + intros j N. rewrite length_set. exact (i_holder _ _ V j N).
    + congruence.
    + congruence.
    + intros _ j r N. destruct (M j r N) as [[-> ->]|[J N']].
      * destruct p as [e|]; cbn in *; [|exact I]. destruct E as [(A1 & A2 & _)|(y & A1 & A2 & _ & A3)]; [left; tauto|right; exists y; tauto].
      * assert (A := i_early _ _ V D j r N'). assert (Hn := Others j r J N'). destruct r as [| | | | | | |? []|? []| | |[]]; cbn in *; try exact I; try discriminate Hn; destruct A.
    + intros _. destruct p as [e|]; cbn in E.
      * destruct E as [(A1 & A2 & _)|(y & A1 & _ & _ & A3)]; [split; congruence|split; congruence].
      * destruct E as (y & A1 & _ & _ & A3). split; congruence.
    + intros j k r s N1 N2 F1 F2. destruct (M j r N1) as [[-> ->]|[D1 N1']], (M k s N2) as [[-> ->]|[D2 N2']]; try reflexivity;
        [destruct (NF _ _ N2' F2)|destruct (NF _ _ N1' F1)|destruct (NF _ _ N1' F1)].
    + intros _ X. exists i, (Unlock c p). split; [apply nth_set, B|]. destruct p as [e|]; [exact I|]. cbn in E.
      destruct E as (y & A1 & A2 & _ & A3). destruct X as [(e & X)|(z & e & X1 & X2)]; congruence.
  - (* releasing the mutex *)
    destruct (done_ w) eqn:D; [|destruct (EA eq_refl)]. assert (L := LA eq_refl). intros [= <-].
    assert (Mu : mutex w = Some i) by (apply ME; reflexivity).
    set (p' := match p with Some e => Ended (LoadFailed e) | None => Return c end).
    assert (M := fun j r => move_cases i p' (Unlock c p) w j r Q).
    assert (FF : load_failed p' <-> load_failed (Unlock (inst := inst) c p)) by (subst p'; destruct p; cbn; tauto).
    constructor; cbn [calls done_ mutex themaBI loads move]; try apply V.
    + rewrite length_set. apply V.
    + intros j r N. destruct (M j r N) as [[-> ->]|[_ N']]; [|exact (i_ctx _ _ V j r N')].
      destruct (i_ctx _ _ V i _ Q) as (k & N1 & O). exists k. split; [exact N1|]. subst p'. destruct p; cbn in *; congruence.
    + intros j r N. destruct (M j r N) as [[-> ->]|[J N']]; [subst p'; destruct p; cbn; split; discriminate|].
      split; [|discriminate]. intros H. apply (i_mutex _ _ V j r N') in H. congruence.
    + discriminate.
    + congruence.
    + congruence.
    + intros _ j r N. destruct (M j r N) as [[-> ->]|[J N']]; [|exact (i_late _ _ V D j r N')]. subst p'. destruct p; [exact L|exact I].
    + intros j k r s N1 N2 F1 F2. destruct (M j r N1) as [[-> ->]|[D1 N1']], (M k s N2) as [[-> ->]|[D2 N2']]; try reflexivity.
      * exact (i_one _ _ V i k _ s Q N2' (proj1 FF F1) F2).
      * exact (i_one _ _ V j i r _ N1' Q F1 (proj1 FF F2)).
      * exact (i_one _ _ V j k r s N1' N2' F1 F2).
    + intros _ X. destruct (i_some _ _ V D X) as (j & r & N & G). destruct (Nat.eq_dec i j) as [<-|J].
      * exists i, p'. split; [apply nth_set, B|]. apply FF. congruence.
      * exists j, r. split; [rewrite nth_set_ne by exact J; exact N|exact G].
  - intros [= <-]. destruct (done_ w) eqn:D; [|destruct (EA eq_refl)].
    eapply inv_move; try eassumption; cbn; auto; try congruence; tauto.
  - intros [= <-]. destruct (done_ w) eqn:D; [|destruct (EA eq_refl)]. assert (L := LA eq_refl). cbn in L.
    eapply inv_move; try eassumption; destruct b as [y|]; cbn; auto; try congruence; try tauto.
Qed.

Lemma inv_run ctxs tr : forall w w', inv ctxs w -> run tr w = Some w' -> inv ctxs w'.
Proof.
  induction tr as [|[i x] tr IH]; intros w w' V; cbn [Once.run]; [intros [= <-]; exact V|].
  destruct (step i x w) as [w1|] eqn:E; [|discriminate]. apply IH. exact (inv_step ctxs i x w w1 V E).
Qed.

(** *** Properties *)

Section Reached.
Variables (ctxs : list (option nat)) (tr : list (nat * inst)) (w : world).
Hypothesis R : run tr (start ctxs) = Some w.
Let V : inv ctxs w := inv_run ctxs tr _ w (inv_start ctxs) R.

Lemma once : loads w <= 1.
Proof. apply V. Qed.

Lemma made_same i j c d x y : nth_error (calls w) i = Some (Ended (Made c x)) -> nth_error (calls w) j = Some (Ended (Made d y)) ->
  nth_error ctxs i = Some (Some c) /\ x = y /\ themaBI w = Some x.
Proof.
  intros H1 H2. assert (D : done_ w = true).
  { destruct (done_ w) eqn:D; [reflexivity|]. destruct (i_early _ _ V D _ _ H1). }
  assert (L1 := i_late _ _ V D _ _ H1). assert (L2 := i_late _ _ V D _ _ H2). cbn in L1, L2.
  destruct (i_ctx _ _ V _ _ H1) as (k & N & O). cbn in O. subst k. split; [exact N|]. split; congruence.
Qed.

Lemma good : overlay = None -> (forall x, themaBI w = Some x -> invalid x = None) ->
  forall i r, nth_error (calls w) i = Some (Ended r) ->
  (exists c x, nth_error ctxs i = Some (Some c) /\ r = Made c x) \/ (nth_error ctxs i = Some None /\ r = NilContext).
Proof.
  intros O G i r H. destruct (i_ctx _ _ V _ _ H) as (k & N & C). destruct (done_ w) eqn:D.
  - assert (L := i_late _ _ V D _ _ H). destruct r as [c x| |e|]; cbn in *.
    + left. exists c, x. subst k. split; [exact N|reflexivity].
    + right. subst k. split; [exact N|reflexivity].
    + exfalso. destruct L as [[_ L]|(x & L1 & L2 & _)]; [congruence|]. rewrite (G x L1) in L2. discriminate L2.
    + exfalso. apply (proj1 (i_over _ _ V D) L). exact O.
  - assert (L := i_early _ _ V D _ _ H). destruct r as [c x| |e|]; cbn in *; try (destruct L; fail).
    right. subst k. split; [exact N|reflexivity].
Qed.

(** Who fails to load tells why; all others go on with what there is. *)
Lemma failed_once i j e e' : nth_error (calls w) i = Some (Ended (LoadFailed e)) -> nth_error (calls w) j = Some (Ended (LoadFailed e')) -> i = j.
Proof. intros H1 H2. exact (i_one _ _ V i j _ _ H1 H2 I I). Qed.

Lemma failed_why i e : nth_error (calls w) i = Some (Ended (LoadFailed e)) ->
  (overlay = Some e /\ loads w = 0 /\ forall j c x, nth_error (calls w) j <> Some (Ended (Made c x))) \/
  (exists x, themaBI w = Some x /\ invalid x = Some e /\ forall j, nth_error (calls w) j <> Some (Ended NilInstance)).
Proof.
  intros H. assert (D : done_ w = true).
  { destruct (done_ w) eqn:D; [reflexivity|]. destruct (i_early _ _ V D _ _ H). }
  assert (L := i_late _ _ V D _ _ H). cbn in L. destruct L as [[L1 L2]|(x & L1 & L2 & _)]; [left|right].
  - split; [exact L2|]. split; [apply (i_bi _ _ V), L1|]. intros j c x N. assert (X := i_late _ _ V D _ _ N). cbn in X. congruence.
  - exists x. split; [exact L1|]. split; [exact L2|]. intros j N. assert (X := i_late _ _ V D _ _ N). cbn in X. congruence.
Qed.

(** Nobody waits for ever. *)
Lemma progress (x : inst) : (forall i p, nth_error (calls w) i = Some p -> exists r, p = Ended r) \/ exists i w', step i x w = Some w'.
Proof.
  destruct (mutex w) as [i|] eqn:Mu.
  - right. exists i. assert (B := i_holder _ _ V i Mu). destruct (nth_error (calls w) i) as [p|] eqn:N; [|apply nth_error_None in N; lia].
    assert (H : holds p = true) by (apply (i_mutex _ _ V i p N), Mu).
    unfold Once.step. rewrite N. destruct p; try discriminate H; eexists; reflexivity.
  - assert (A : forall l : list at_, (forall i p, nth_error l i = Some p -> exists r, p = Ended r) \/
      exists i p, nth_error l i = Some p /\ forall r, p <> Ended r).
    { induction l as [|p l IH]; [left; intros [|] p H; discriminate H|].
      destruct p as [| | | | | | | | | | |r]; try (right; exists 0; eexists; split; [reflexivity|discriminate]).
      destruct IH as [IH|(i & p & N & H)]; [left|right; exists (S i), p; split; assumption].
      intros [|i] p H; [injection H as <-; eauto|exact (IH i p H)]. }
    destruct (A (calls w)) as [K|(i & p & N & H)]; [left; exact K|right]. exists i. unfold Once.step. rewrite N, Mu.
    destruct p as [[c|]|c|c|c|c|c|c|c p|c p|c|c b|r]; try (eexists; reflexivity). destruct (H r eq_refl).
Qed.
End Reached.

(** Once a call is past [rtOnce.Do], what it reads does not change any more. *)
Definition past (p : at_) : Prop :=
  match p with Return _ | Build _ _ | Ended (Made _ _) | Ended NilInstance | Ended (LoadFailed _) => True | _ => False end.

Lemma past_done ctxs w i p : inv ctxs w -> nth_error (calls w) i = Some p -> past p -> done_ w = true.
Proof.
  intros V N P. destruct (done_ w) eqn:D; [reflexivity|]. assert (E := i_early _ _ V D i p N). destruct p as [| | | | | | | | | | |[]]; cbn in *; tauto.
Qed.

Lemma done_steady ctxs i x w w' : inv ctxs w -> done_ w = true -> step i x w = Some w' -> done_ w' = true /\ themaBI w' = themaBI w.
Proof.
  intros V D. unfold Once.step. destruct (nth_error (calls w) i) as [q|] eqn:Q; [|discriminate]. assert (L := i_late _ _ V D i q Q).
  destruct q as [[c|]|c|c|c|c|c|c|c p|c p|c|c b|r]; try discriminate; try (destruct L; fail); try (intros [= <-]; cbn; auto; fail).
  destruct (mutex w); [discriminate|]. intros [= <-]; cbn; auto.
Qed.

Lemma settled ctxs tr tr' w w' i p : run tr (start ctxs) = Some w -> nth_error (calls w) i = Some p -> past p ->
  run tr' w = Some w' -> themaBI w' = themaBI w.
Proof.
  intros R N P. assert (V := inv_run ctxs tr _ w (inv_start ctxs) R). assert (D := past_done ctxs w i p V N P). clear N P R. revert w V D.
  induction tr' as [|[j x] tr' IH]; intros w V D; cbn [Once.run]; [intros [= <-]; reflexivity|].
  destruct (step j x w) as [w1|] eqn:E; [|discriminate]. destruct (done_steady ctxs j x w w1 V D E) as [D1 T1].
  intros R. rewrite (IH w1 (inv_step ctxs j x w w1 V E) D1 R). exact T1.
Qed.

(** Every execution ends. *)
Definition left_of (p : at_) : nat :=
  match p with
  | Start _ => 11 | Look _ => 10 | Lock _ => 9 | Check _ => 8 | Overlay _ => 7 | Load _ => 6 | Validate _ => 5
  | SetDone _ _ => 4 | Unlock _ _ => 3 | Return _ => 2 | Build _ _ => 1 | Ended _ => 0
  end.
Fixpoint total (l : list at_) : nat := match l with [] => 0 | p :: r => left_of p + total r end.

Lemma total_set i p q : forall l, nth_error l i = Some q -> left_of p < left_of q -> total (set_at i p l) < total l.
Proof.
  induction i as [|i IH]; intros [|r l] N L; try discriminate N; cbn in *.
  - injection N as ->. lia.
  - specialize (IH l N L). lia.
Qed.

Lemma step_total i x w w' : step i x w = Some w' -> total (calls w') < total (calls w).
Proof.
  unfold Once.step. destruct (nth_error (calls w) i) as [q|] eqn:Q; [|discriminate].
  destruct q as [[c|]|c|c|c|c|c|c|c p|c p|c|c b|r]; try discriminate;
    try (intros [= <-]; cbn [move calls]; eapply total_set; [exact Q|]; cbn; try destruct (done_ w); try destruct overlay; try destruct p; cbn; lia).
  destruct (mutex w); [discriminate|]. intros [= <-]. cbn [move calls]. eapply total_set; [exact Q|]. cbn. lia.
Qed.

Lemma ends ctxs tr w : run tr (start ctxs) = Some w -> length tr <= 11 * length ctxs.
Proof.
  assert (G : forall tr w0 w, run tr w0 = Some w -> length tr + total (calls w) <= total (calls w0)).
  { clear. induction tr as [|[i x] tr IH]; intros w0 w; cbn [Once.run length]; [intros [= <-]; lia|].
    destruct (step i x w0) as [w1|] eqn:E; [|discriminate]. intros R. apply IH in R. apply step_total in E. lia. }
  intros R. apply G in R. replace (11 * length ctxs) with (total (calls (start (inst := inst) ctxs))); [lia|].
  unfold start. cbn [calls]. clear. induction ctxs as [|c ctxs IH]; [reflexivity|]. cbn [map total left_of length]. rewrite IH. lia.
Qed.

(** The first call fails, the second uses what the first has left. *)
Definition first_then_second (x : inst) : list (nat * inst) := repeat (0, x) 9 ++ repeat (1, x) 4.

Lemma invalid_used c d x e : overlay = None -> invalid x = Some e ->
  exists w, run (first_then_second x) (start [Some c; Some d]) = Some w /\
    calls w = [Ended (LoadFailed e); Ended (Made d x)].
Proof.
  intros O X. unfold first_then_second. cbn. unfold Once.step. cbn. rewrite O. cbn. rewrite X. cbn. eexists. split; reflexivity.
Qed.

Lemma overlay_lost c d x e : overlay = Some e ->
  exists w, run (repeat (0, x) 7 ++ repeat (1, x) 4) (start [Some c; Some d]) = Some w /\
    calls w = [Ended (LoadFailed e); Ended NilInstance].
Proof. intros O. cbn. unfold Once.step. cbn. rewrite O. cbn. eexists. split; reflexivity. Qed.
End Proofs.
