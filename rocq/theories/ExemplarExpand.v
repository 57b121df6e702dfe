(** Translations in the exemplar lineage [expand]. *)
From Verif Require Import Prelude Version VersionProofs Search ValidateErr Native Split Lineage LineageProofs WalkProofs Translate.
From Verif Require Import CueFrag CueSem CueProofs HydrateSem CueEval CueEvalSem CueEvalProofs CueEvalFacts Exemplars ExemplarProofs.
From Coq Require Import Sorting.Permutation.
Local Open Scope string_scope.
Local Open Scope list_scope.

Lemma perm3 {A} (a b c : A) l : Permutation l [a; b; c] ->
  In l [[a; b; c]; [a; c; b]; [b; a; c]; [c; a; b]; [b; c; a]; [c; b; a]].
Proof.
  intros P. apply Permutation_sym in P. destruct (Permutation_vs_cons_inv (Permutation_sym P)) as [l1 [l2 ->]].
  apply Permutation_cons_app_inv in P. apply Permutation_length_2_inv in P.
  destruct P as [P|P]; destruct l1 as [|x [|y [|z l1]]]; cbn in P; try (injection P as <- P); try discriminate; subst; cbn; auto 8.
  all: try (injection P as <- P); try discriminate; subst; cbn; auto 8.
Qed.

(** The labels of the schemas. *)
Definition expand_labels (k : nat) : list string := firstn (S k) ["init"; "optional"; "withDefault"].
Definition expand_schema (k : nat) : val :=
  match k with 0 => expand00 | 1 => expand01 | 2 => expand02 | _ => expand03 end.

Definition expanded (errs : cval -> verr) rm (fuel : nat) (id : N) (j k : nat) (df : list (string * data)) : Prop :=
  if (Nat.eqb j 3 && Nat.ltb k 3 && match lookup "withDefault" df with Some (DAtom (AString s)) => String.eqb s "baz" | _ => false end)%bool
  then exists e, translate (cue_fragment errs) rm (S fuel) (mkInst (CV (embed (DStruct df))) "" (sch expand id j) true) (s_v (sch expand id k)) = Err e
  else exists w df', translate (cue_fragment errs) rm (S fuel) (mkInst (CV (embed (DStruct df))) "" (sch expand id j) true) (s_v (sch expand id k))
         = Ok (mkInst (CV w) "" (sch expand id k) true, []) /\ eval w None = Con (DStruct df') /\
       forall l, lookup l df' = if existsb (String.eqb l) (expand_labels k) then lookup l df else None.

Lemma int_valid x : valid (VType TInt) x -> exists z, x = DAtom (AInt z).
Proof. intros [r V]. destruct x as [[ | | | | | ]| |]; cbn in V; try discriminate. eexists. reflexivity. Qed.
Lemma two_valid m1 m2 x : valid (VOr [(m1, lit "foo"); (m2, lit "bar")]) x -> x = txt "foo" \/ x = txt "bar".
Proof.
  intros [r V]. destruct x as [[ | | | |s| ]| |]; try (destruct m1, m2; vm_compute in V; discriminate).
  cbn [eval map fst snd lit atom_eqb] in V.
  destruct (String.eqb_spec "foo" s) as [<-|A]; [auto|]. destruct (String.eqb_spec "bar" s) as [<-|B]; [auto|]. cbn in V. discriminate.
Qed.

Ltac labels := let l := fresh in intros l; cbn [lookup existsb expand_labels firstn];
  repeat match goal with |- context [String.eqb l ?s] => destruct (String.eqb_spec l s) as [->|_]; [vm_compute; reflexivity|] end; vm_compute; reflexivity.
Ltac shape F := unfold expanded; match goal with |- if ?c then _ else _ => let b := eval vm_compute in c in change c with b end; cbv iota;
  first [stop F | do 2 eexists; split; [go F|]; split; [vm_compute; reflexivity|labels]].

Ltac targets K := match type of K with ?k <= 3 => destruct k as [|[|[|[|k]]]]; [| | | |lia] end;
  match goal with |- expanded _ _ _ ?id ?j ?k _ => let F := fresh in assert (F : fits_in expand id j k (expand_schema k)) by fit; shape F end.

Lemma expand_run0 errs rm fuel id k d : k <= 3 -> dwf d -> valid expand00 d -> exists df, d = DStruct df /\ expanded errs rm fuel id 0 k df.
Proof.
  intros K D V. apply one_field in V as [[_ [r V]]|[x [-> V]]]; [vm_compute in V; discriminate| |exact D]. apply valid_str in V as [s ->].
  eexists. split; [reflexivity|]. targets K.
Qed.

Lemma expand_run1 errs rm fuel id k d : k <= 3 -> dwf d -> valid expand01 d -> exists df, d = DStruct df /\ expanded errs rm fuel id 1 k df.
Proof.
  intros K D V. assert (M : NoDup (map flabel [("init", false, strT); ("optional", true, VType TInt)])) by (repeat constructor; cbn; intuition discriminate).
  destruct (closed_data _ d D M V) as [df [-> [P F]]]. exists df. split; [reflexivity|].
  pose proof (F _ (or_introl eq_refl)) as A. pose proof (F _ (or_intror (or_introl eq_refl))) as B. cbn in A, B, P. clear F.
  destruct (lookup "init" df) as [x|]; [|destruct A as [A|[r A]]; discriminate]. apply valid_str in A as [s ->].
  destruct (lookup "optional" df) as [y|].
  - apply int_valid in B as [z ->]. apply Permutation_sym, Permutation_length_2_inv in P as [->| ->]; targets K.
  - apply Permutation_sym, Permutation_length_1_inv in P as ->. targets K.
Qed.

Ltac three P K := apply perm3 in P; cbn in P; destruct P as [<-|[<-|[<-|[<-|[<-|[<-|[]]]]]]]; targets K.
Ltac two P K := apply Permutation_sym, Permutation_length_2_inv in P as [->| ->]; targets K.

Lemma expand_run2 errs rm fuel id k d : k <= 3 -> dwf d -> valid expand02 d -> exists df, d = DStruct df /\ expanded errs rm fuel id 2 k df.
Proof.
  intros K D V. assert (M : NoDup (map flabel [("init", false, strT); ("optional", true, VType TInt); withDefault ["foo"; "bar"]]))
    by (repeat constructor; cbn; intuition discriminate).
  destruct (closed_data _ d D M V) as [df [-> [P F]]]. exists df. split; [reflexivity|].
  pose proof (F _ (or_introl eq_refl)) as A. pose proof (F _ (or_intror (or_introl eq_refl))) as B.
  pose proof (F _ (or_intror (or_intror (or_introl eq_refl)))) as C. cbn [flabel fval fopt fst snd withDefault map String.eqb] in A, B, C. cbn in P. clear F.
  destruct (lookup "init" df) as [x|]; [|destruct A as [A|[r A]]; discriminate]. apply valid_str in A as [s ->].
  destruct (lookup "optional" df) as [y|].
  - apply int_valid in B as [z ->]. destruct (lookup "withDefault" df) as [w|].
    + apply two_valid in C as [->| ->]; three P K.
    + two P K.
  - destruct (lookup "withDefault" df) as [w|].
    + apply two_valid in C as [->| ->]; two P K.
    + apply Permutation_sym, Permutation_length_1_inv in P as ->. targets K.
Qed.

Lemma expand_run3 errs rm fuel id k d : k <= 3 -> dwf d -> valid expand03 d -> exists df, d = DStruct df /\ expanded errs rm fuel id 3 k df.
Proof.
  intros K D V. assert (M : NoDup (map flabel [("init", false, strT); ("optional", true, VType TInt); withDefault ["foo"; "bar"; "baz"]]))
    by (repeat constructor; cbn; intuition discriminate).
  destruct (closed_data _ d D M V) as [df [-> [P F]]]. exists df. split; [reflexivity|].
  pose proof (F _ (or_introl eq_refl)) as A. pose proof (F _ (or_intror (or_introl eq_refl))) as B.
  pose proof (F _ (or_intror (or_intror (or_introl eq_refl)))) as C. cbn [flabel fval fopt fst snd withDefault map String.eqb] in A, B, C. cbn in P. clear F.
  destruct (lookup "init" df) as [x|]; [|destruct A as [A|[r A]]; discriminate]. apply valid_str in A as [s ->].
  destruct (lookup "optional" df) as [y|].
  - apply int_valid in B as [z ->]. destruct (lookup "withDefault" df) as [w|].
    + apply three_valid in C as [->|[->| ->]]; three P K.
    + two P K.
  - destruct (lookup "withDefault" df) as [w|].
    + apply three_valid in C as [->|[->| ->]]; two P K.
    + apply Permutation_sym, Permutation_length_1_inv in P as ->. targets K.
Qed.

Lemma expand_runs errs rm fuel id j k d : j <= 3 -> k <= 3 -> dwf d -> valid (expand_schema j) d ->
  exists df, d = DStruct df /\ expanded errs rm fuel id j k df.
Proof.
  intros J K D V. destruct j as [|[|[|[|j]]]]; [apply expand_run0|apply expand_run1|apply expand_run2|apply expand_run3|lia]; assumption.
Qed.
