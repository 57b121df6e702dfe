(** Proofs about summaries. *)
From Verif Require Import Prelude Strings Util GenName GenNameProofs GenCommentProofs OpSummary OpSummarySpec.
Local Open Scope string_scope.
Local Open Scope list_scope.

Lemma split_join : forall s, String.concat newline (split_str s newline) = s /\
  Forall (fun l => no_nl l = true) (split_str s newline).
Proof.
  induction s as [|c r [J F]]; [split; [reflexivity | repeat constructor]|].
  rewrite split_nl. destruct (Ascii.eqb c nl) eqn:E.
  - apply Ascii.eqb_eq in E. subst c. destruct (split_str r newline) as [|p ps] eqn:X; [exfalso; exact (split_ne r X)|].
    rewrite concat_cons, J. split; [reflexivity | constructor; [reflexivity | exact F]].
  - destruct (split_str r newline) as [|p ps] eqn:X; [exfalso; exact (split_ne r X)|].
    inversion F as [|? ? F1 F2]; subst. split.
    + destruct ps as [|q ps]; cbn [String.concat] in *; cbn [append]; reflexivity.
    + constructor; [|exact F2]. unfold no_nl in *. cbn [all]. rewrite E, F1. reflexivity.
Qed.

Lemma trim_cases : forall s p, trim_suffix s p = s \/ s = (trim_suffix s p ++ p)%string.
Proof.
  induction s as [|c r IH]; intros p; cbn [trim_suffix].
  - destruct (String.eqb_spec "" p) as [<-|N]; auto.
  - destruct (String.eqb_spec (String c r) p) as [<-|N]; [right; reflexivity|].
    destruct (IH p) as [E|E]; [left; rewrite E; reflexivity | right]. cbn [append]. rewrite <- E. reflexivity.
Qed.

Lemma split_end x : split_str (x ++ newline) newline = split_str x newline ++ [""].
Proof. change newline with (newline ++ "")%string at 1. rewrite split_app. reflexivity. Qed.

Lemma trimmed_lines s ls : has_lines s ls -> split_str (trim_suffix s newline) newline = ls.
Proof.
  intros (N & F & [->|[-> L]]).
  - rewrite trim_suffix_app. apply split_concat; assumption.
  - rewrite trim_suffix_none; [apply split_concat; assumption|].
    intros x E. apply L. rewrite <- (split_concat ls N F), E, split_end. apply last_last.
Qed.

Lemma prefixed_no_nl ls : Forall (fun l => no_nl l = true) ls ->
  Forall (fun l => no_nl l = true) (map (fun p => ("// " ++ p)%string) ls).
Proof. intros F. apply Forall_forall. intros x I. apply in_map_iff in I. destruct I as [l [<- I]].
  rewrite Forall_forall in F. unfold no_nl in *. cbn. apply (F l I). Qed.

Lemma comment_of s ls : s <> "" -> has_lines s ls ->
  summaryAsComment s = String.concat newline (map (fun l => ("// " ++ l)%string) ls) /\
  split_str (summaryAsComment s) newline = map (fun l => ("// " ++ l)%string) ls.
Proof.
  intros N H. assert (E : summaryAsComment s = String.concat newline (map (fun l => ("// " ++ l)%string) ls)).
  { unfold summaryAsComment. apply String.eqb_neq in N. rewrite N. cbv zeta. rewrite (trimmed_lines s ls H). reflexivity. }
  split; [exact E|]. rewrite E. destruct H as (M & F & _).
  apply split_concat; [|apply prefixed_no_nl, F]. destruct ls; [congruence | discriminate].
Qed.

Lemma lines_exist s : s <> "" -> exists ls, has_lines s ls /\ forall ms, has_lines s ms -> ms = ls.
Proof.
  intros N. exists (split_str (trim_suffix s newline) newline). split.
  - destruct (split_join (trim_suffix s newline)) as [J F]. split; [apply split_ne|]. split; [exact F|].
    destruct (trim_cases s newline) as [E|E]; [right | left; rewrite J; exact E].
    rewrite E in *. split; [symmetry; exact J|]. intros L.
    destruct (@exists_last _ (split_str s newline) (split_ne s)) as [front [x X]]. rewrite X, last_last in L. subst x.
    destruct front as [|a front]; [rewrite X in J; cbn in J; congruence|].
    assert (Y : exists y, s = (y ++ newline)%string).
    { exists (String.concat newline (a :: front)). rewrite <- J, X. clear. revert a.
      induction front as [|b r IH]; intros a; [reflexivity|].
      change ((a :: b :: r) ++ [""]) with (a :: b :: (r ++ [""])). rewrite !concat_cons.
      change (b :: r ++ [""]) with ((b :: r) ++ [""]). rewrite IH, !str_app_assoc. reflexivity. }
    destruct Y as [y ->]. rewrite trim_suffix_app in E. apply (f_equal String.length) in E.
    clear - E. assert (G : forall a b, String.length (a ++ b) = String.length a + String.length b)
      by (induction a as [|c a IH]; intros b; cbn; [reflexivity | rewrite IH; reflexivity]).
    rewrite G in E. cbn in E. lia.
  - intros ms H. symmetry. apply trimmed_lines. exact H.
Qed.

Lemma comment_empty s : summaryAsComment s = "" <-> s = "".
Proof.
  split; [|intros ->; reflexivity]. intros E. destruct (string_dec s "") as [->|N]; [reflexivity|]. exfalso.
  destruct (lines_exist s N) as (ls & H & _). destruct (comment_of s ls N H) as [_ X]. rewrite E in X.
  destruct H as (M & _). destruct ls as [|l ls]; [congruence|]. discriminate.
Qed.
