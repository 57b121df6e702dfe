(** Facts about AssignText.v. *)
From Verif Require Import Prelude CueFrag CueSem CueProofs Assign AssignSem AssignProofs AssignFacts AssignPathProofs AssignText.
From Coq Require Import Permutation.
Local Open Scope string_scope.
Local Open Scope list_scope.

(** Two messages about the same rule. *)
Definition same_rule (m m' : amsg) : Prop :=
  m = m' \/ (exists a b c d, m = MKind a b /\ m' = MKind c d) \/ (exists a b, m = MMulti a /\ m' = MMulti b).

Lemma loop_concat l : forall n i, n = i + length l -> error_loop n i l = String.concat line_end l.
Proof.
  induction l as [|e l IH]; intros n i E; [reflexivity|]. cbn [error_loop]. rewrite (IH n (S i)) by (cbn in E; lia).
  destruct l as [|e' l]; cbn in E.
  - replace (n - 1) with i by lia. rewrite Nat.eqb_refl. cbn. induction e; cbn; congruence.
  - destruct (Nat.eqb_spec i (n - 1)) as [F|_]; [lia|]. cbn [String.concat].
    induction e as [|c e IHe]; cbn; [reflexivity|f_equal; exact IHe].
Qed.

Lemma same_start p : forall a b, (p ++ a = p ++ b)%string -> a = b.
Proof. induction p as [|c p IH]; cbn; intros a b E; [exact E|]. injection E as E. exact (IH _ _ E). Qed.

Section T.
Variable pstr : path -> string.
Variable kstr : kinds -> string.
Variable printed : path -> string * string.

Lemma message_path e : exists rest, message pstr kstr printed e = (pstr (fst e) ++ ": " ++ rest)%string.
Proof. destruct e as [p m]. unfold message. cbn. destruct (printed p) as [a b]. destruct m; eexists; reflexivity. Qed.

Lemma message_rule p m m' : message pstr kstr printed (p, m) = message pstr kstr printed (p, m') -> same_rule m m'.
Proof.
  unfold message. cbn [fst snd]. destruct (printed p) as [a b]. intros E.
  destruct m, m'; apply same_start in E; cbn in E; try discriminate E; solve [left; reflexivity|right; left; do 4 eexists; split; reflexivity|right; right; do 2 eexists; split; reflexivity].
Qed.

Lemma text_exact sch T m : assignable sch T = Ok (AErrs m) -> forall l, Permutation m l ->
  m <> [] /\
  assignErrs_Error pstr kstr printed l = String.concat line_end (map (message pstr kstr printed) l) /\
  (forall e, In e m -> exists rest, message pstr kstr printed e = (pstr (fst e) ++ ": " ++ rest)%string) /\
  forall p r r', message pstr kstr printed (p, r) = message pstr kstr printed (p, r') -> same_rule r r'.
Proof.
  intros E l P. split.
  - intros ->. unfold assignable in E. destruct (deref T) as [[]|]; try discriminate E.
    destruct (check _ _ _ _) as [[|x w]|e| |]; cbn in E; try discriminate E. injection E as E. revert E. clear.
    unfold errs_of. assert (H : forall (w0 m0 : list (path * amsg)), fold_left put w0 m0 = [] -> m0 = [] /\ w0 = []).
    { intros w0. induction w0 as [|y w0 IH]; intros m0 E; [auto|]. cbn in E. apply IH in E as [E _]. unfold put in E. apply app_eq_nil in E as [_ E]. discriminate E. }
    intros E. apply H in E as [E _]. discriminate E.
  - split; [|split; [intros e _; apply message_path|exact message_rule]].
    unfold assignErrs_Error. rewrite <- (map_length (message pstr kstr printed)). apply loop_concat. reflexivity.
Qed.
End T.

(** The last character. *)
Fixpoint last_char (s : string) : option ascii :=
  match s with EmptyString => None | String c EmptyString => Some c | String _ r => last_char r end.
Lemma last_app a b : b <> "" -> last_char (a ++ b) = last_char b.
Proof.
  intros N. induction a as [|d a IH]; [reflexivity|]. cbn [append]. rewrite <- IH. cbn. destruct a; cbn; [|reflexivity].
  destruct b; [contradiction|reflexivity].
Qed.

Definition order_schema : val := VStruct [("a", false, VType TString)] None.
Lemma order pstr kstr printed : exists m l, assignable order_schema (GV (GStruct [("b", GString)])) = Ok (AErrs m) /\ Permutation m l /\
  assignErrs_Error pstr kstr printed m <> assignErrs_Error pstr kstr printed l.
Proof.
  exists [([SField "a"], MAbsentGo); ([SField "b"], MAbsentSchema)], [([SField "b"], MAbsentSchema); ([SField "a"], MAbsentGo)].
  split; [vm_compute; reflexivity|]. split; [apply perm_swap|]. intros E. apply (f_equal last_char) in E.
  unfold assignErrs_Error in E. rewrite !(loop_concat _ _ 0) in E by reflexivity. cbn [map String.concat] in E. unfold message in E. cbn [fst snd] in E.
  destruct (printed [SField "a"]) as [a1 a2], (printed [SField "b"]) as [b1 b2].
  assert (N : forall p c r, (p ++ String c r)%string <> "") by (intros [|d p] c r; discriminate).
  rewrite (last_app _ (line_end ++ _)) in E by discriminate. rewrite (last_app line_end) in E by apply N. rewrite last_app in E by discriminate.
  rewrite (last_app _ (line_end ++ _)) in E by discriminate. rewrite (last_app line_end) in E by apply N. rewrite last_app in E by discriminate.
  discriminate E.
Qed.
