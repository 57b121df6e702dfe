(** Proofs about slices that share arrays. *)
From Verif Require Import Prelude SliceParams SliceParamsSpec.
Local Open Scope list_scope.

Section Proofs.
Context {A : Type}.
Variable zero : A.
Variable room : nat -> nat -> nat.
Notation append := (append A zero room).

(** A slice holds the first elements of a list. *)
Definition holds (all : list A) (h : heap A) (s : slice) : Prop :=
  valid h s /\ sl_len s <= length all /\ forall i, i < sl_len s -> nth_error (cells h s) i = nth_error all i.

Lemma nth_ext_some : forall (l m : list A), length l = length m ->
  (forall i, i < length l -> nth_error l i = nth_error m i) -> l = m.
Proof.
  induction l as [|x l IH]; intros [|y m] L N; try discriminate; [reflexivity|].
  f_equal.
  - specialize (N 0 (Nat.lt_0_succ _)). cbn in N. congruence.
  - apply IH; [cbn in L; lia|]. intros i I. apply (N (S i)). cbn. lia.
Qed.

Lemma nth_firstn : forall n (l : list A) i, i < n -> nth_error (firstn n l) i = nth_error l i.
Proof.
  induction n as [|n IH]; intros l i I; [lia|]. destruct l as [|x l]; [destruct i; reflexivity|].
  destruct i as [|i]; [reflexivity|]. cbn. apply IH. lia.
Qed.

Lemma nth_skipn : forall n (l : list A) i, nth_error (skipn n l) i = nth_error l (n + i).
Proof.
  induction n as [|n IH]; intros l i; [reflexivity|]. destruct l as [|x l]; [destruct i; reflexivity|]. cbn. apply IH.
Qed.

Lemma holds_read : forall all h s, holds all h s <-> valid h s /\ sl_len s <= length all /\ read h s = firstn (sl_len s) all.
Proof.
  intros all h s. unfold holds. split; intros ([V L] & M & N); (split; [split; assumption|]; split; [exact M|]).
  - unfold read. apply nth_ext_some; [rewrite !firstn_length; lia|].
    intros i I. rewrite firstn_length in I. rewrite !nth_firstn by lia. apply N. lia.
  - intros i I. unfold read in N. rewrite <- (nth_firstn (sl_len s) (cells h s) i I), N. apply nth_firstn. exact I.
Qed.

Lemma cells_set : forall f n (a : nat) c s,
  cells (mkHeap (set_cells A f a c) n) s = if Nat.eqb (sl_arr s) a then c else f (sl_arr s).
Proof. reflexivity. Qed.

(** An array after an append in it. *)
Lemma written_cells : forall (c xs tail all : list A) len i,
  len <= length c -> len + length xs <= length all ->
  (forall j, j < len -> nth_error c j = nth_error all j) ->
  xs = firstn (length xs) (skipn len all) -> i < len + length xs ->
  nth_error (firstn len c ++ xs ++ tail) i = nth_error all i.
Proof.
  intros c xs tail all len i L La C X I.
  destruct (Nat.lt_ge_cases i len) as [J|J].
  - rewrite nth_error_app1 by (rewrite firstn_length; lia). rewrite nth_firstn by exact J. apply C. exact J.
  - rewrite nth_error_app2 by (rewrite firstn_length; lia). rewrite firstn_length, Nat.min_l by exact L.
    rewrite nth_error_app1 by lia. rewrite X. rewrite nth_firstn by lia. rewrite nth_skipn. f_equal. lia.
Qed.

(** What an append does to its own slice, to slices of the same list, and to
    other arrays. *)
Lemma append_step : forall all h s xs h' s',
  holds all h s -> sl_len s + length xs <= length all -> xs = firstn (length xs) (skipn (sl_len s) all) ->
  append h s xs = (h', s') ->
  holds all h' s' /\ sl_len s' = sl_len s + length xs /\ h_next h <= h_next h' /\
  (sl_arr s' = sl_arr s \/ h_next h <= sl_arr s') /\
  (forall t, holds all h t -> holds all h' t) /\
  (forall a, a < h_next h -> a <> sl_arr s -> h_cells h' a = h_cells h a).
Proof.
  intros all h s xs h' s' ([V L] & M & N) La X E. unfold SliceParams.append in E.
  destruct (Nat.leb (sl_len s + length xs) (length (cells h s))) eqn:B; injection E as <- <-.
  - apply Nat.leb_le in B.
    assert (LC : length (firstn (sl_len s) (cells h s) ++ xs ++ skipn (sl_len s + length xs) (cells h s)) = length (cells h s))
      by (rewrite !app_length, firstn_length, skipn_length; lia).
    split; [|split; [reflexivity|split; [cbn; lia|split; [left; reflexivity|split]]]].
    + split; [|split; [cbn; exact La|]].
      * split; [exact V|]. rewrite cells_set. cbn [sl_arr sl_len]. rewrite Nat.eqb_refl. rewrite LC. exact B.
      * intros i I. rewrite cells_set. cbn [sl_arr sl_len] in *. rewrite Nat.eqb_refl.
        apply written_cells; assumption.
    + intros t ([Vt Lt] & Mt & Nt). split; [|split; [exact Mt|]].
      * split; [exact Vt|]. rewrite cells_set. destruct (Nat.eqb (sl_arr t) (sl_arr s)) eqn:Q; [|exact Lt].
        apply Nat.eqb_eq in Q. rewrite LC. unfold cells in *. rewrite <- Q. exact Lt.
      * intros i I. rewrite cells_set. destruct (Nat.eqb (sl_arr t) (sl_arr s)) eqn:Q; [|apply Nt; exact I].
        apply Nat.eqb_eq in Q. destruct (Nat.lt_ge_cases i (sl_len s + length xs)) as [J|J].
        -- apply written_cells; assumption.
        -- rewrite nth_error_app2 by (rewrite firstn_length; lia).
           rewrite firstn_length, Nat.min_l by exact L.
           rewrite nth_error_app2 by lia. rewrite nth_skipn.
           replace (sl_len s + length xs + (i - sl_len s - length xs)) with i by lia.
           specialize (Nt i I). unfold cells in *. rewrite <- Q. exact Nt.
    + intros a _ D. cbn. unfold set_cells. apply Nat.eqb_neq in D. rewrite D. reflexivity.
  - apply Nat.leb_gt in B.
    split; [|split; [reflexivity|split; [cbn; lia|split; [right; cbn; lia|split]]]].
    + split; [|split; [cbn; exact La|]].
      * split; [cbn; lia|]. rewrite cells_set. cbn [sl_arr sl_len]. rewrite Nat.eqb_refl.
        rewrite !app_length, firstn_length. lia.
      * intros i I. rewrite cells_set. cbn [sl_arr sl_len] in *. rewrite Nat.eqb_refl.
        apply written_cells; assumption.
    + intros t ([Vt Lt] & Mt & Nt).
      assert (Q : Nat.eqb (sl_arr t) (h_next h) = false) by (apply Nat.eqb_neq; lia).
      split; [|split; [exact Mt|]].
      * split; [cbn; lia|]. rewrite cells_set, Q. exact Lt.
      * intros i I. rewrite cells_set, Q. apply Nt. exact I.
    + intros a D _. cbn. unfold set_cells. assert (Q : Nat.eqb a (h_next h) = false) by (apply Nat.eqb_neq; lia).
      rewrite Q. reflexivity.
Qed.

Lemma prefix_part : forall (a b c : list A) n, n = length a -> b = firstn (length b) (skipn n (a ++ b ++ c)).
Proof.
  intros a b c n ->. rewrite skipn_app, skipn_all, Nat.sub_diag. cbn.
  rewrite firstn_app, firstn_all, Nat.sub_diag. cbn. rewrite app_nil_r. reflexivity.
Qed.

Section Op.
Variable o : opParams.
Variables q hd c p : list A.
Let all := q ++ hd ++ c ++ p.

(** The slices of the operation are as they were. *)
Definition intact (h : heap A) : Prop :=
  valid_op h o /\ apart o /\
  read h (op_query o) = q /\ read h (op_header o) = hd /\ read h (op_cookie o) = c /\ read h (op_path o) = p.

Lemma read_length : forall (h : heap A) (s : slice), valid h s -> length (read h s) = sl_len s.
Proof. intros h s [_ L]. unfold read. rewrite firstn_length. lia. Qed.

Lemma query_holds : forall h : heap A, intact h -> holds all h (op_query o).
Proof.
  intros h ((V & _) & _ & Q & _). apply holds_read.
  pose proof (read_length h _ V) as E. rewrite Q in E.
  split; [exact V|]. unfold all. split; [rewrite app_length; lia|].
  rewrite Q, <- E, firstn_app, firstn_all, Nat.sub_diag. cbn. rewrite app_nil_r. reflexivity.
Qed.

Lemma same_slice : forall (h h' : heap A) s, valid h s -> h_next h <= h_next h' -> h_cells h' (sl_arr s) = h_cells h (sl_arr s) ->
  valid h' s /\ read h' s = read h s.
Proof. intros h h' s [V L] N C. unfold valid, read, cells in *. rewrite C. repeat split; auto. lia. Qed.

(** An append to a slice of the operation's list, in the array of the query
    parameters or in a later one. *)
Lemma append_intact : forall h s xs h' s' n0,
  intact h -> n0 <= h_next h -> valid_op (mkHeap (h_cells h) n0) o ->
  (sl_arr s = sl_arr (op_query o) \/ n0 <= sl_arr s) ->
  holds all h s -> sl_len s + length xs <= length all -> xs = firstn (length xs) (skipn (sl_len s) all) ->
  append h s xs = (h', s') ->
  intact h' /\ valid_op (mkHeap (h_cells h') n0) o /\ n0 <= h_next h' /\
  (sl_arr s' = sl_arr (op_query o) \/ n0 <= sl_arr s') /\
  holds all h' s' /\ sl_len s' = sl_len s + length xs /\ (forall t, holds all h t -> holds all h' t).
Proof.
  intros h s xs h' s' n0 I N0 V0 P H La X E.
  destruct (append_step _ _ _ _ _ _ H La X E) as (H' & L' & N' & P' & K & F).
  pose proof (K _ (query_holds h I)) as HQ. pose proof (query_holds h I) as HQ0.
  destruct I as ((Vq & Vh & Vc & Vp) & (A1 & A2 & A3) & Rq & Rh & Rc & Rp).
  destruct V0 as ((Wq & _) & (Wh & _) & (Wc & _) & (Wp & _)). cbn in Wq, Wh, Wc, Wp.
  assert (G : forall s0, valid h s0 -> sl_arr s0 < n0 -> sl_arr (op_query o) <> sl_arr s0 ->
                h_cells h' (sl_arr s0) = h_cells h (sl_arr s0)).
  { intros s0 [V _] W D. apply F; [exact V|]. destruct P as [P|P]; [congruence | lia]. }
  destruct (same_slice h h' _ Vh N' (G _ Vh Wh A1)) as [Vh' Rh'].
  destruct (same_slice h h' _ Vc N' (G _ Vc Wc A2)) as [Vc' Rc'].
  destruct (same_slice h h' _ Vp N' (G _ Vp Wp A3)) as [Vp' Rp'].
  apply holds_read in HQ as (Vq' & _ & Rq'). apply holds_read in HQ0 as (_ & _ & Rq0).
  split.
  { split; [repeat split; try apply Vq'; try apply Vh'; try apply Vc'; try apply Vp'|].
    split; [repeat split; assumption|]. repeat split; congruence. }
  split.
  { unfold valid_op, valid. cbn. repeat split; try assumption; [apply Vq'|apply Vh'|apply Vc'|apply Vp']. }
  split; [lia|]. split; [|auto].
  destruct P' as [P'|P']; [rewrite P'; exact P | right; lia].
Qed.

Definition follows (n0 : nat) (h : heap A) (s : slice) : Prop :=
  intact h /\ valid_op (mkHeap (h_cells h) n0) o /\ n0 <= h_next h /\
  (sl_arr s = sl_arr (op_query o) \/ n0 <= sl_arr s) /\ holds all h s.

Lemma follows_query : forall h, intact h -> follows (h_next h) h (op_query o).
Proof.
  intros h I. split; [exact I|]. split; [destruct h; apply I|]. split; [lia|]. split; [left; reflexivity|].
  apply query_holds. exact I.
Qed.

Lemma follows_append : forall n0 h s xs h' s' before after, follows n0 h s ->
  all = before ++ xs ++ after -> sl_len s = length before -> append h s xs = (h', s') ->
  follows n0 h' s' /\ sl_len s' = length (before ++ xs) /\ (forall t, holds all h t -> holds all h' t).
Proof.
  intros n0 h s xs h' s' before after (I & V & N & P & H) E L X.
  destruct (append_intact h s xs h' s' n0 I N V P H) as (I' & V' & N' & P' & H' & L' & K).
  - rewrite E, !app_length. lia.
  - rewrite E. apply prefix_part. exact L.
  - exact X.
  - split; [repeat split; try assumption; try apply I'; try apply V'; apply H'|]. rewrite app_length, L', L. auto.
Qed.

Lemma call_ok : forall h (b : bool) h' s, intact h ->
  (if b then allParams A zero room o h else params A zero room o h) = (h', s) ->
  intact h' /\ holds all h' s /\ read h' s = wanted h o b /\ (forall t, holds all h t -> holds all h' t).
Proof.
  intros h b h' s I E. unfold allParams, params in E. unfold wanted.
  pose proof I as ((Vq & _) & _ & Rq & Rh & Rc & Rp).
  pose proof (read_length h _ Vq) as Lq. rewrite Rq in Lq. rewrite Rq, Rh, Rc, Rp. rewrite Rh in E.
  destruct (append h (op_query o) hd) as [h1 r1] eqn:E1.
  destruct (follows_append (h_next h) h (op_query o) hd h1 r1 q (c ++ p) (follows_query h I) eq_refl (eq_sym Lq) E1)
    as (F1 & L1 & K1).
  assert (C1 : read h1 (op_cookie o) = c) by (destruct F1 as ((_ & _ & _ & _ & X & _) & _); exact X).
  rewrite C1 in E. destruct (append h1 r1 c) as [h2 r2] eqn:E2.
  assert (S2 : all = (q ++ hd) ++ c ++ p) by (unfold all; rewrite <- app_assoc; reflexivity).
  destruct (follows_append (h_next h) h1 r1 c h2 r2 (q ++ hd) p F1 S2 L1 E2) as (F2 & L2 & K2).
  assert (P2 : read h2 (op_path o) = p) by (destruct F2 as ((_ & _ & _ & _ & _ & X) & _); exact X).
  assert (S3 : all = ((q ++ hd) ++ c) ++ p ++ []) by (rewrite app_nil_r, S2, <- !app_assoc; reflexivity).
  destruct b.
  - rewrite P2 in E.
    destruct (follows_append (h_next h) h2 r2 p h' s ((q ++ hd) ++ c) [] F2 S3 L2 E) as (F3 & L3 & K3).
    split; [apply F3|]. destruct F3 as (_ & _ & _ & _ & H3). split; [exact H3|]. split; [|auto].
    apply holds_read in H3 as (_ & _ & R). rewrite R, L3. rewrite S3, app_nil_r, firstn_all, <- !app_assoc. reflexivity.
  - injection E as <- <-. split; [apply F2|]. destruct F2 as (_ & _ & _ & _ & H2). split; [exact H2|]. split; [|auto].
    apply holds_read in H2 as (_ & _ & R). rewrite R, L2. rewrite S3, firstn_app, firstn_all, Nat.sub_diag. cbn.
    rewrite !app_nil_r, <- app_assoc. reflexivity.
Qed.

Lemma calls_ok : forall l h h' ss, intact h -> calls A zero room o h l = (h', ss) ->
  intact h' /\ Forall2 (fun b s => read h' s = wanted h o b) l ss /\ (forall t, holds all h t -> holds all h' t).
Proof.
  induction l as [|b l IH]; intros h h' ss I E; cbn [calls] in E.
  - injection E as <- <-. auto.
  - destruct (if b then allParams A zero room o h else params A zero room o h) as [h1 s] eqn:E1.
    destruct (calls A zero room o h1 l) as [h2 rest] eqn:E2. injection E as <- <-.
    destruct (call_ok h b h1 s I E1) as (I1 & H1 & R1 & K1).
    destruct (IH h1 h2 rest I1 E2) as (I2 & F2 & K2).
    assert (W : forall b0, wanted h1 o b0 = wanted h o b0).
    { intros b0. unfold wanted. destruct I as (_ & _ & -> & -> & -> & ->), I1 as (_ & _ & -> & -> & -> & ->). reflexivity. }
    split; [exact I2|]. split; [|auto]. constructor.
    + pose proof (K2 s H1) as H2. apply holds_read in H1 as (_ & _ & X1), H2 as (_ & _ & X2). congruence.
    + clear - F2 W. induction F2 as [|x y l ss X F IH]; constructor; [rewrite X; apply W | exact IH].
Qed.
End Op.

Lemma calls_stay : forall o h l h' ss, valid_op h o -> apart o -> calls A zero room o h l = (h', ss) ->
  Forall2 (fun b s => read h' s = wanted h o b) l ss /\
  read h' (op_query o) = read h (op_query o) /\ read h' (op_header o) = read h (op_header o) /\
  read h' (op_cookie o) = read h (op_cookie o) /\ read h' (op_path o) = read h (op_path o).
Proof.
  intros o h l h' ss V P E.
  destruct (calls_ok o (read h (op_query o)) (read h (op_header o)) (read h (op_cookie o)) (read h (op_path o)) l h h' ss)
    as (I & F & _); [repeat split; try apply V; try apply P | exact E |].
  split; [exact F|]. destruct I as (_ & _ & Q). exact Q.
Qed.

(** *** Filtering *)

(** Of one append alone. *)
Lemma append_read : forall h s xs h' s', valid h s -> append h s xs = (h', s') ->
  valid h' s' /\ read h' s' = read h s ++ xs /\ read h' s = read h s /\ valid h' s /\ h_next h <= h_next h' /\
  (sl_arr s' = sl_arr s \/ h_next h <= sl_arr s') /\
  (forall a, a < h_next h -> a <> sl_arr s -> h_cells h' a = h_cells h a).
Proof.
  intros h s xs h' s' V E. pose proof (read_length h s V) as L.
  assert (H : holds (read h s ++ xs) h s).
  { apply holds_read. split; [exact V|]. rewrite app_length. split; [lia|].
    rewrite <- L. rewrite firstn_app, firstn_all, Nat.sub_diag. cbn. rewrite app_nil_r. reflexivity. }
  destruct (append_step (read h s ++ xs) h s xs h' s' H) as (H' & L' & N' & P' & K & F); [rewrite app_length; lia| |exact E|].
  { pose proof (prefix_part (read h s) xs [] (sl_len s) (eq_sym L)) as X. rewrite app_nil_r in X. exact X. }
  pose proof (K s H) as HS.
  apply holds_read in H as (_ & _ & R0), H' as (V' & _ & R'), HS as (VS & _ & RS).
  split; [exact V'|]. split; [rewrite R'; apply firstn_all2; rewrite app_length; lia|].
  split; [congruence|]. auto.
Qed.

Lemma filter_loop_ok : forall keep ps h out h' s n0, valid h out -> n0 <= sl_arr out -> n0 <= h_next h ->
  filter_loop A zero room keep h out ps = (h', s) ->
  valid h' s /\ read h' s = read h out ++ filter keep ps /\ n0 <= sl_arr s /\ h_next h <= h_next h' /\
  (forall a, a < n0 -> h_cells h' a = h_cells h a).
Proof.
  induction ps as [|p r IH]; intros h out h' s n0 V N0 N1 E; cbn [filter_loop filter] in E |- *.
  - injection E as <- <-. rewrite app_nil_r. auto.
  - destruct (keep p).
    + destruct (append h out [p]) as [h1 out1] eqn:E1.
      destruct (append_read _ _ _ _ _ V E1) as (V1 & R1 & _ & _ & M1 & P1 & F1).
      destruct (IH h1 out1 h' s n0 V1) as (V2 & R2 & P2 & M2 & F2); [destruct P1; lia|lia|exact E|].
      split; [exact V2|]. split; [rewrite R2, R1, <- app_assoc; reflexivity|]. split; [exact P2|]. split; [lia|].
      intros a L. rewrite F2 by exact L. apply F1; lia.
    + apply (IH h out h' s n0); assumption.
Qed.

Lemma filter_fresh : forall keep h ps h' s, filterParams A zero room keep h ps = (h', s) ->
  valid h' s /\ read h' s = filter keep (read h ps) /\ h_next h <= sl_arr s /\ h_next h <= h_next h' /\
  (forall t, valid h t -> valid h' t /\ read h' t = read h t).
Proof.
  intros keep h ps h' s E. unfold filterParams, nil_slice in E.
  match type of E with filter_loop _ _ _ _ ?h0 ?o0 _ = _ =>
    destruct (filter_loop_ok keep (read h ps) h0 o0 h' s (h_next h)) as (V & R & P & M & F) end.
  - split; [cbn; lia|]. cbn. lia.
  - cbn. lia.
  - cbn. lia.
  - exact E.
  - split; [exact V|]. split; [rewrite R; reflexivity|]. split; [exact P|]. cbn in M. split; [lia|].
    intros t Vt. apply same_slice; [exact Vt | lia|]. rewrite F by apply Vt. cbn. unfold set_cells.
    replace (Nat.eqb (sl_arr t) (h_next h)) with false; [reflexivity|]. symmetry. apply Nat.eqb_neq. destruct Vt. lia.
Qed.

Lemma make_fresh : forall h l h' s, make_slice A h l = (h', s) ->
  valid h' s /\ read h' s = l /\ h_next h <= sl_arr s /\ h_next h <= h_next h' /\
  (forall t, valid h t -> valid h' t /\ read h' t = read h t).
Proof.
  intros h l h' s E. unfold make_slice in E. injection E as <- <-.
  assert (C : forall n, cells (mkHeap (set_cells A (h_cells h) (h_next h) l) n) (mkSlice (h_next h) (length l)) = l)
    by (intros n; rewrite cells_set; cbn; rewrite Nat.eqb_refl; reflexivity).
  split; [split; [cbn; lia | rewrite C; cbn; lia]|]. split; [unfold read; rewrite C; apply firstn_all|].
  cbn. split; [lia|]. split; [lia|]. intros t V. apply same_slice; [exact V | cbn; lia |].
  cbn. unfold set_cells. replace (Nat.eqb (sl_arr t) (h_next h)) with false; [reflexivity|].
  symmetry. apply Nat.eqb_neq. destruct V. lia.
Qed.

Lemma operation_ok : forall sorted at_place h ps h' o, valid h ps ->
  operation A zero room sorted at_place h ps = (h', o) ->
  valid_op h' o /\ apart o /\
  read h' (op_path o) = sorted (filter (at_place "path"%string) (read h ps)) /\
  read h' (op_header o) = filter (at_place "header"%string) (read h ps) /\
  read h' (op_query o) = filter (at_place "query"%string) (read h ps) /\
  read h' (op_cookie o) = filter (at_place "cookie"%string) (read h ps).
Proof.
  intros sorted at_place h ps h' o V E. unfold operation in E.
  destruct (filterParams A zero room (at_place "path"%string) h ps) as [h1 p0] eqn:E1.
  destruct (filter_fresh _ _ _ _ _ E1) as (V1 & R1 & P1 & N1 & K1). destruct (K1 ps V) as [Vp1 Rp1].
  destruct (make_slice A h1 (sorted (read h1 p0))) as [h2 p] eqn:E2.
  destruct (make_fresh _ _ _ _ E2) as (V2 & R2 & P2 & N2 & K2). destruct (K2 ps Vp1) as [Vp2 Rp2].
  destruct (filterParams A zero room (at_place "header"%string) h2 ps) as [h3 hd] eqn:E3.
  destruct (filter_fresh _ _ _ _ _ E3) as (V3 & R3 & P3 & N3 & K3). destruct (K3 ps Vp2) as [Vp3 Rp3].
  destruct (filterParams A zero room (at_place "query"%string) h3 ps) as [h4 q] eqn:E4.
  destruct (filter_fresh _ _ _ _ _ E4) as (V4 & R4 & P4 & N4 & K4). destruct (K4 ps Vp3) as [Vp4 Rp4].
  destruct (filterParams A zero room (at_place "cookie"%string) h4 ps) as [h5 c] eqn:E5.
  destruct (filter_fresh _ _ _ _ _ E5) as (V5 & R5 & P5 & N5 & K5).
  injection E as <- <-. cbn.
  destruct (K3 p V2) as [W3 X3]. destruct (K4 p W3) as [W4 X4]. destruct (K5 p W4) as [W5 X5].
  destruct (K4 hd V3) as [Y4 Z4]. destruct (K5 hd Y4) as [Y5 Z5]. destruct (K5 q V4) as [T5 U5].
  split; [repeat split; cbn; [apply T5|apply T5|apply Y5|apply Y5|apply V5|apply V5|apply W5|apply W5]|].
  split; [unfold apart; cbn; destruct V2, V3, V4; lia|].
  repeat split; congruence.
Qed.

Lemma operation_calls : forall sorted at_place h ps h1 o l h' ss, valid h ps ->
  operation A zero room sorted at_place h ps = (h1, o) -> calls A zero room o h1 l = (h', ss) ->
  Forall2 (fun (all : bool) s => read h' s =
     filter (at_place "query"%string) (read h ps) ++ filter (at_place "header"%string) (read h ps) ++
     filter (at_place "cookie"%string) (read h ps) ++
     (if all then sorted (filter (at_place "path"%string) (read h ps)) else [])) l ss.
Proof.
  intros sorted at_place h ps h1 o l h' ss V E C.
  destruct (operation_ok _ _ _ _ _ _ V E) as (VO & AP & Rp & Rh & Rq & Rc).
  destruct (calls_stay o h1 l h' ss VO AP C) as [F _]. unfold wanted in F. rewrite Rp, Rh, Rq, Rc in F. exact F.
Qed.

(** *** Global parameters *)

Lemma global_ok : forall global locals h h' rs, valid h global -> with_global A zero room global h locals = (h', rs) ->
  map fst rs = map (fun l => read h global ++ l) locals /\ read h' global = read h global.
Proof.
  induction locals as [|l r IH]; intros h h' rs V E; cbn [with_global] in E.
  - injection E as <- <-. split; reflexivity.
  - destruct (append h global l) as [h1 s] eqn:E1. destruct (with_global A zero room global h1 r) as [h2 ss] eqn:E2.
    injection E as <- <-. destruct (append_read _ _ _ _ _ V E1) as (_ & R & R0 & V1 & _).
    destruct (IH h1 h2 ss V1 E2) as [M G]. cbn. rewrite M, R, R0. split; [reflexivity | congruence].
Qed.
End Proofs.
