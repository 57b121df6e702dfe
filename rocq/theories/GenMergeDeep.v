(** Compositions of compositions. *)
From Verif Require Import Prelude Strings Version Util UtilProofs GenName GenNameProofs GenSpellProofs
  GenCommentProofs GenType GenTypeSpec GenTypeProofs GenDeclProofs GenMergeProofs.
Local Open Scope string_scope.
Local Open Scope list_scope.

Section Deep.
Variable env : string -> schema.

(** The schemas a composition consists of, however deep: of a part that is a
    composition itself, its parts. *)
Inductive leaves : list sref -> list schema -> Prop :=
| leaves_nil : leaves [] []
| leaves_own r l ts : s_allOf (value env r) = None -> leaves l ts -> leaves (r :: l) (value env r :: ts)
| leaves_deep r p l us ts :
    s_allOf (value env r) = Some p -> leaves p us -> leaves l ts -> leaves (r :: l) (us ++ ts).

(** What the result [m] of merging [ts] into [acc] has. *)
Definition has_all (acc m : schema) (ts : list schema) : Prop :=
  s_allOf m = None /\
  b_type (s_base m) = b_type (s_base acc) /\
  b_enum (s_base m) = b_enum (s_base acc) ++ flat_map (fun t => b_enum (s_base t)) ts /\
  b_required (s_base m) = b_required (s_base acc) ++ flat_map (fun t => b_required (s_base t)) ts /\
  s_addl m = last_addl (s_addl acc) ts /\
  (is_map (s_props acc) -> (forall t, In t ts -> is_map (s_props t)) ->
     is_map (s_props m) /\ forall k, lookup k (s_props m) = latest k (s_props acc) ts).

Lemma latest_from k first ts :
  latest k first ts = match latest k [] ts with Some x => Some x | None => lookup k first end.
Proof.
  unfold latest. cbn [lookup].
  induction ts as [|t ts IH] using rev_ind; [cbn; destruct (lookup k first); reflexivity|].
  rewrite !fold_left_app. cbn [fold_left]. destruct (lookup k (s_props t)); [reflexivity|exact IH].
Qed.
Lemma latest_app k first us ts :
  latest k first (us ++ ts) = match latest k [] ts with Some x => Some x | None => latest k first us end.
Proof.
  unfold latest at 1. rewrite fold_left_app. fold (latest k first us).
  induction ts as [|t ts IH] using rev_ind; [cbn; destruct (latest k first us); reflexivity|].
  unfold latest at 2. rewrite !fold_left_app. cbn [fold_left]. destruct (lookup k (s_props t)); [reflexivity|].
  exact IH.
Qed.
Lemma addl_from first ts :
  last_addl first ts = match last_addl None ts with Some x => Some x | None => first end.
Proof.
  unfold last_addl. induction ts as [|t ts IH] using rev_ind; [reflexivity|].
  rewrite !fold_left_app. cbn [fold_left]. destruct (s_addl t); [reflexivity|exact IH].
Qed.

(** One step of merging a part that stands for [us]. *)
Lemma step one acc s2 m us :
  s_allOf acc = None -> has_all zero_schema s2 us \/ (us = [s2] /\ s_allOf s2 = None) ->
  merge_flat one acc s2 = Ok m -> has_all acc m us /\ s_oneOf m = one.
Proof.
  intros A P H. destruct (merge_flat_only _ _ _ _ H) as [G1 G2]. rewrite merge_flat_ok in H by assumption.
  injection H as <-. split; [|reflexivity]. unfold has_all. cbn [s_allOf s_base s_props s_addl merged_base b_type b_enum b_required flat_map].
  rewrite !app_nil_r. destruct P as [(P1 & P2 & P3 & P4 & P5 & P6)|[-> P1]].
  - cbn [zero_schema s_base zero_base b_enum b_required s_addl s_props app] in *.
    rewrite A, P1. split; [reflexivity|]. split; [reflexivity|]. split; [now rewrite P3|]. split; [now rewrite P4|].
    split; [rewrite (addl_from (s_addl acc) us), <- P5; reflexivity|].
    intros M1 M2. destruct (P6 (NoDup_nil _) M2) as [Q1 Q2].
    destruct (put_all (s_props acc) M1 [] (NoDup_nil _)) as [R1 R2].
    destruct (put_all (s_props s2) Q1 _ R1) as [T1 T2]. split; [exact T1|]. intros k. rewrite T2, R2, Q2.
    rewrite (latest_from k (s_props acc) us). cbn [lookup]. destruct (latest k [] us), (lookup k (s_props acc)); reflexivity.
  - rewrite A, P1. cbn [flat_map]. rewrite !app_nil_r. repeat (split; [reflexivity|]).
    intros M1 M2. destruct (put_all (s_props acc) M1 [] (NoDup_nil _)) as [R1 R2].
    destruct (put_all (s_props s2) (M2 s2 (or_introl eq_refl)) _ R1) as [T1 T2]. split; [exact T1|]. intros k.
    rewrite T2, R2. unfold latest. cbn [fold_left lookup].
    destruct (lookup k (s_props s2)), (lookup k (s_props acc)); reflexivity.
Qed.

Lemma has_all_app acc m1 m us ts : has_all acc m1 us -> has_all m1 m ts -> has_all acc m (us ++ ts).
Proof.
  intros (A1 & A2 & A3 & A4 & A5 & A6) (B1 & B2 & B3 & B4 & B5 & B6). unfold has_all.
  split; [exact B1|]. split; [congruence|]. rewrite !flat_map_app.
  split; [rewrite B3, A3, app_assoc; reflexivity|]. split; [rewrite B4, A4, app_assoc; reflexivity|].
  split; [rewrite B5, A5; unfold last_addl; rewrite fold_left_app; reflexivity|].
  intros M1 M2. destruct (A6 M1) as [C1 C2]; [intros t I; apply M2; apply in_or_app; left; exact I|].
  destruct (B6 C1) as [D1 D2]; [intros t I; apply M2; apply in_or_app; right; exact I|].
  split; [exact D1|]. intros k. rewrite D2, latest_from, C2, <- latest_app. reflexivity.
Qed.

Lemma loop_deep mergeAll :
  (forall p s, mergeAll p = Ok s -> exists us, leaves p us /\ has_all zero_schema s us) ->
  forall l acc m, s_allOf acc = None -> merge_loop env mergeAll acc l = Ok m ->
  exists ts, leaves l ts /\ has_all acc m ts /\ s_oneOf m = all_oneOf (s_oneOf acc) (parts_of env l).
Proof.
  intros HM l. induction l as [|r l IH]; intros acc m A H.
  - cbn in H. injection H as <-. exists []. split; [constructor|]. split; [|reflexivity].
    unfold has_all. cbn [flat_map]. rewrite !app_nil_r. split; [exact A|]. repeat (split; [reflexivity|]).
    intros M _. split; [exact M|reflexivity].
  - cbn [merge_loop] in H. unfold mergeOpenapi in H at 1. rewrite A in H. cbn [bind] in H.
    destruct (s_allOf (value env r)) as [p|] eqn:E.
    + destruct (mergeAll p) as [s2| | |] eqn:Q; cbn [instead bind] in H; try discriminate.
      destruct (HM p s2 Q) as (us & U1 & U2).
      destruct (merge_flat _ acc s2) as [m1| | |] eqn:F; cbn [because bind] in H; try discriminate.
      destruct (step _ acc s2 m1 us A (or_introl U2) F) as [S1 S2].
      destruct (IH m1 m (proj1 S1) H) as (ts & T1 & T2 & T3). exists (us ++ ts).
      split; [exact (leaves_deep r p l us ts E U1 T1)|]. split; [exact (has_all_app _ _ _ _ _ S1 T2)|].
      rewrite T3, S2. reflexivity.
    + cbn [bind] in H.
      destruct (merge_flat _ acc (value env r)) as [m1| | |] eqn:F; cbn [because bind] in H; try discriminate.
      destruct (step _ acc (value env r) m1 [value env r] A (or_intror (conj eq_refl E)) F) as [S1 S2].
      destruct (IH m1 m (proj1 S1) H) as (ts & T1 & T2 & T3). exists (value env r :: ts).
      split; [exact (leaves_own r l ts E T1)|]. split; [exact (has_all_app _ _ _ [value env r] _ S1 T2)|].
      rewrite T3, S2. reflexivity.
Qed.
Lemma all_deep n : forall p s, mergeAllOf env n p = Ok s -> exists us, leaves p us /\ has_all zero_schema s us.
Proof.
  induction n as [|n IH]; intros p s H; [discriminate|]. cbn [mergeAllOf] in H.
  destruct (loop_deep _ IH p zero_schema s eq_refl H) as (ts & T1 & T2 & _). exists ts. auto.
Qed.
Lemma merge_deep n l acc m : s_allOf acc = None -> merge_loop env (mergeAllOf env n) acc l = Ok m ->
  exists ts, leaves l ts /\ has_all acc m ts /\ s_oneOf m = all_oneOf (s_oneOf acc) (parts_of env l).
Proof. exact (loop_deep _ (all_deep n) l acc m). Qed.

Lemma leaves_one l ts us : leaves l ts -> leaves l us -> ts = us.
Proof.
  intros H. revert us. induction H as [|r l ts E H IH|r p l vs ts E H1 IH1 H2 IH2]; intros us K; inversion K; subst; try congruence.
  - f_equal. apply IH. assumption.
  - rewrite E in *. match goal with Q : Some _ = Some _ |- _ => injection Q as -> end. f_equal; auto.
Qed.
End Deep.

(** The file of types. *)
Lemma types_written same ts s : generateTypes same ts = Ok s ->
  exists us, NoDup (tnames us) /\ (forall d, In d us -> In d ts) /\ (forall n, In n (tnames ts) -> In n (tnames us)) /\
    s = (String.concat "" (map typedef_text us) ++ newline)%string.
Proof.
  unfold generateTypes. destruct (unique_types same [] ts) as [us| | |] eqn:E; cbn [bind]; try discriminate.
  intros [= <-]. destruct (unique_sound same ts [] us E) as [A [B C]]. exists us.
  split; [exact A|]. split; [intros d I; exact (proj1 (B d I))|]. split; [|reflexivity].
  intros n I. destruct (C n I) as [F|F]; [destruct F|exact F].
Qed.
Lemma types_refused same ts e : generateTypes same ts = Err e ->
  exists a d b f, ts = a ++ d :: b /\ In f a /\ fst (fst f) = fst (fst d) /\
    same (g_oapi (snd f)) (g_oapi (snd d)) = false /\
    e_text e = ("duplicate typename '" ++ fst (fst d) ++ "' detected, can't auto-rename, please use x-go-name to specify your own name for one of them")%string.
Proof.
  unfold generateTypes. destruct (unique_types same [] ts) as [us| | |] eqn:E; cbn [bind]; try discriminate.
  intros [= <-]. exact (unique_fails same ts [] _ E).
Qed.
