From Verif Require Import Prelude Strings Version Util GenName GenType GenGlobals.
From Coq Require Import Lia.
Local Open Scope string_scope.
Local Open Scope list_scope.

(** What a body makes of given values of the variables. *)
Fixpoint eval (g : globals) (b : body) : outcome string :=
  match b with
  | BDone r => r
  | BCompat k => eval g (k (o_compat (g_opts g)))
  | BAddl k => eval g (k (o_addl (g_opts g)))
  | BClient k => eval g (k (o_client (g_opts g)))
  | BSuffix k => eval g (k (g_suffix g))
  | BImports k => eval g (k (g_imports g))
  | BSpec k => eval g (k (g_spec g))
  end.

(** The values a call sets, with the suffix in force. *)
Definition own (c : call) (suffix : string) : globals :=
  mkGlobals (mkOpts (o_compat (c_opts c)) (o_addl (c_opts c)) (if String.eqb (o_client (c_opts c)) "" then "Client" else o_client (c_opts c))
               (o_suffix (c_opts c)) (o_imports (c_opts c)))
    (Some (c_spec c)) (constructImportMapping (o_imports (c_opts c))) suffix false.

(** Calls one after the other. *)
Definition completes (g : globals) (c : call) (g' : globals) (r : outcome string) : Prop :=
  exists n t, run (repeat 0 n) g [generate c] = Some (g', [t]) /\ returned t r.
Inductive turns : globals -> list call -> list (outcome string) -> Prop :=
| turns_nil g : turns g [] []
| turns_cons g c g' r cs rs : completes g c g' r -> turns g' cs rs -> turns g (c :: cs) (r :: rs).
Fixpoint expected (suffix : string) (cs : list call) : list (outcome string) :=
  match cs with
  | [] => []
  | c :: r =>
      let x := if String.eqb (o_suffix (c_opts c)) "" then suffix else o_suffix (c_opts c) in
      eval (own c x) (c_body c) :: expected x r
  end.

(** *** One call alone *)

Lemma eval_same g g' b : o_compat (g_opts g) = o_compat (g_opts g') -> o_addl (g_opts g) = o_addl (g_opts g') ->
  o_client (g_opts g) = o_client (g_opts g') -> g_suffix g = g_suffix g' -> g_imports g = g_imports g' -> g_spec g = g_spec g' ->
  eval g b = eval g' b.
Proof. intros A B C D E F. induction b; cbn; rewrite ?A, ?B, ?C, ?D, ?E, ?F; auto. Qed.

Lemma run_app s1 s2 g ts : run (s1 ++ s2) g ts =
  match run s1 g ts with Some (g', ts') => run s2 g' ts' | None => None end.
Proof.
  revert g ts; induction s1 as [|i s1 IH]; intros g ts; cbn; [reflexivity|].
  destruct (nth_error ts i); [|apply IH]. destruct (advance g t) as [[g1 t1]|]; [apply IH|reflexivity].
Qed.

Lemma body_runs b : forall g, exists n, run (repeat 0 n) g [mkThread [] b] = Some (g, [mkThread [] (BDone (eval g b))]).
Proof.
  induction b as [r|k IH|k IH|k IH|k IH|k IH|k IH]; intros g.
  - exists 0. reflexivity.
  - destruct (IH (o_compat (g_opts g)) g) as [n H]. exists (S n). exact H.
  - destruct (IH (o_addl (g_opts g)) g) as [n H]. exists (S n). exact H.
  - destruct (IH (o_client (g_opts g)) g) as [n H]. exists (S n). exact H.
  - destruct (IH (g_suffix g) g) as [n H]. exists (S n). exact H.
  - destruct (IH (g_imports g) g) as [n H]. exists (S n). exact H.
  - destruct (IH (g_spec g) g) as [n H]. exists (S n). exact H.
Qed.

Definition suffix_after (x : string) (c : call) : string :=
  if String.eqb (o_suffix (c_opts c)) "" then x else o_suffix (c_opts c).

Lemma acts_run g c : g_writing g = false -> exists n,
  run (repeat 0 n) g [generate c] = Some (own c (suffix_after (g_suffix g) c), [mkThread [] (c_body c)]).
Proof.
  intros W. destruct c as [[co ad cl su im] s b]. unfold generate, own, suffix_after; cbn [c_opts c_spec c_body o_suffix o_client o_compat o_addl o_imports].
  destruct g as [go gs gi gx gw]. cbn in W. subst gw.
  destruct (String.eqb su "") eqn:E1; destruct (String.eqb cl "") eqn:E2.
  - exists 8. cbn -[String.eqb constructImportMapping]. rewrite E2. reflexivity.
  - exists 7. cbn -[String.eqb constructImportMapping]. rewrite E2. reflexivity.
  - exists 9. cbn -[String.eqb constructImportMapping]. rewrite E2. reflexivity.
  - exists 8. cbn -[String.eqb constructImportMapping]. rewrite E2. reflexivity.
Qed.

Lemma completes_exists g c : g_writing g = false ->
  completes g c (own c (suffix_after (g_suffix g) c)) (eval (own c (suffix_after (g_suffix g) c)) (c_body c)).
Proof.
  intros W. destruct (acts_run g c W) as [n H]. destruct (body_runs (c_body c) (own c (suffix_after (g_suffix g) c))) as [m K].
  exists (n + m), (mkThread [] (BDone (eval (own c (suffix_after (g_suffix g) c)) (c_body c)))). split; [|split; reflexivity].
  rewrite repeat_app, run_app, H. exact K.
Qed.

Lemma done_stays n g r : run (repeat 0 n) g [mkThread [] (BDone r)] = Some (g, [mkThread [] (BDone r)]).
Proof. induction n; [reflexivity|exact IHn]. Qed.

Lemma completes_unique g c g1 r1 g2 r2 : completes g c g1 r1 -> completes g c g2 r2 -> g1 = g2 /\ r1 = r2.
Proof.
  intros [n [t [H [A B]]]] [m [v [K [C D]]]]. destruct t as [a b], v as [a' b']. cbn in A, B, C, D. subst.
  assert (L : forall x y g1 g2 r1 r2, x <= y -> run (repeat 0 x) g [generate c] = Some (g1, [mkThread [] (BDone r1)]) ->
    run (repeat 0 y) g [generate c] = Some (g2, [mkThread [] (BDone r2)]) -> g1 = g2 /\ r1 = r2).
  { clear. intros x y g1 g2 r1 r2 L H K. replace y with (x + (y - x)) in K by lia. rewrite repeat_app, run_app, H, done_stays in K.
    injection K as -> ->. auto. }
  destruct (Nat.le_ge_cases n m) as [E|E].
  - eapply L; eauto.
  - destruct (L m n g2 g1 r2 r1 E K H) as [-> ->]. auto.
Qed.

Lemma turns_expected cs : forall g outs, g_writing g = false -> (turns g cs outs <-> outs = expected (g_suffix g) cs).
Proof.
  induction cs as [|c cs IH]; intros g outs W; cbn [expected].
  - split; [intros H; inversion H; reflexivity|intros ->; constructor].
  - change (if String.eqb (o_suffix (c_opts c)) "" then g_suffix g else o_suffix (c_opts c)) with (suffix_after (g_suffix g) c).
    pose proof (completes_exists g c W) as E. split.
    + intros H. inversion H as [|? ? g' r ? rs C T]; subst. destruct (completes_unique _ _ _ _ _ _ C E) as [-> ->]. f_equal.
      apply (IH (own c (suffix_after (g_suffix g) c))); [reflexivity|exact T].
    + intros ->. econstructor; [exact E|]. apply IH; reflexivity.
Qed.

(** *** Calls by thema at the same time *)
Section Thema.
Variable u : unicode.

(** Whatever plain document is read, the result is [r]. *)
Inductive agrees (r : outcome string) : body -> Prop :=
| ag_done : agrees r (BDone r)
| ag_compat k : agrees r (k (o_compat thema_opts)) -> agrees r (BCompat k)
| ag_addl k : agrees r (k []) -> agrees r (BAddl k)
| ag_imports k : agrees r (k []) -> agrees r (BImports k)
| ag_spec k : (forall s, plain_spec s -> agrees r (k (Some s))) -> agrees r (BSpec k).

Lemma get_in {A} k (l : list (string * A)) a : get k l = Some a -> In (k, a) l.
Proof.
  induction l as [|[n b] l IH]; cbn; [discriminate|]. destruct (String.eqb n k) eqn:E; intros H.
  - injection H as ->. apply String.eqb_eq in E. subst. auto.
  - auto.
Qed.

(** Under a plain document a reference is named after its last part. *)
Lemma plain_named r parts s : split_str r "/" = parts -> length parts = 4 -> plain_spec s ->
  match findSchemaNameByRefPath u r (Some s) with
  | Ok "" => Ok (schemaNameToTypeName u (last_part parts))
  | Ok name => Ok name
  | Err e => Err (new_err ("error finding ref: " ++ r ++ " in spec: " ++ e_text e))
  | Panic => Panic
  | OutOfFuel => OutOfFuel
  end = Ok (schemaNameToTypeName u (last_part parts)).
Proof.
  intros E L [cs [-> P]]. unfold findSchemaNameByRefPath. rewrite E.
  destruct parts as [|a [|b [|kd [|nm [|]]]]]; try discriminate.
  destruct (negb (String.eqb a hash)); [reflexivity|]. destruct (negb (String.eqb b "components")); [reflexivity|]. cbn zeta. cbn [last_part].
  assert (Q : forall f : components -> list (string * component), incl (f cs) (cs_schemas cs ++ cs_parameters cs ++ cs_responses cs ++ cs_bodies cs) ->
    match (match get nm (f cs) with Some c => rename u nm c | None => Ok "" end) with
    | Ok "" => Ok (schemaNameToTypeName u nm) | Ok name => Ok name
    | Err e => Err (new_err ("error finding ref: " ++ r ++ " in spec: " ++ e_text e)) | Panic => Panic | OutOfFuel => OutOfFuel end
    = Ok (schemaNameToTypeName u nm)).
  { intros f I. destruct (get nm (f cs)) as [c|] eqn:G; [|reflexivity]. apply get_in, I, P in G. unfold rename. rewrite G.
    destruct (cp_ref c); destruct (schemaNameToTypeName u nm); reflexivity. }
  destruct (String.eqb kd "schemas"); [apply Q; intros x H; rewrite !in_app_iff; auto|].
  destruct (String.eqb kd "parameters"); [apply Q; intros x H; rewrite !in_app_iff; auto|].
  destruct (String.eqb kd "responses"); [apply Q; intros x H; rewrite !in_app_iff; auto|].
  destruct (String.eqb kd "requestBodies"); [apply Q; intros x H; rewrite !in_app_iff; auto|reflexivity].
Qed.

Lemma agrees_ref r k x : (r = "" -> agrees x (k Panic)) -> (r <> "" -> agrees x (k (refPathToGoType u r))) -> agrees x (refPathToGoTypeG u r k).
Proof.
  intros H0 H. unfold refPathToGoTypeG. destruct (String.eqb r "") eqn:E0; [apply String.eqb_eq in E0; auto|].
  apply String.eqb_neq in E0. specialize (H E0). unfold refPathToGoType in H. destruct (has_prefix r hash).
  - unfold localRef. cbn [negb andb]. rewrite orb_false_r. destruct (Nat.eqb (length (split_str r "/")) 4) eqn:E; [|exact H].
    apply Nat.eqb_eq in E. constructor. intros s P. rewrite (plain_named r _ s eq_refl E P). exact H.
  - destruct (split_str r hash) as [|a [|b [|]]]; cbn in H |- *; try exact H. constructor. exact H.
Qed.

Lemma eval_ref g r k : o_imports (g_opts g) = [] -> g_imports g = [] -> (exists s, plain_spec s /\ g_spec g = Some s) ->
  eval g (refPathToGoTypeG u r k) = eval g (k (if String.eqb r "" then Panic else refPathToGoType u r)).
Proof.
  intros _ M [s [P S']]. unfold refPathToGoTypeG. destruct (String.eqb r "") eqn:E0; [reflexivity|]. unfold refPathToGoType.
  destruct (has_prefix r hash).
  - unfold localRef. cbn [negb andb]. rewrite orb_false_r. destruct (Nat.eqb (length (split_str r "/")) 4) eqn:E; [|reflexivity].
    apply Nat.eqb_eq in E. cbn [eval]. rewrite S', (plain_named r _ s eq_refl E P). reflexivity.
  - destruct (split_str r hash) as [|a [|b [|]]]; try reflexivity. cbn [eval]. rewrite M. reflexivity.
Qed.

Lemma types_agree c b : by_thema u c -> types_body u b -> agrees (eval (own c "Response") b) b.
Proof.
  intros [O [P _]] T. induction T as [r|k T IH|k T IH|k T IH|r k T IH]; cbn [eval own g_opts o_compat o_addl g_imports].
  - constructor.
  - rewrite O. constructor. apply IH.
  - rewrite O. constructor. apply IH.
  - rewrite O. constructor. apply IH.
  - rewrite eval_ref; [| cbn; rewrite O; reflexivity | cbn; rewrite O; reflexivity | exists (c_spec c); auto].
    apply agrees_ref; intros E.
    + subst r. apply IH.
    + apply String.eqb_neq in E. rewrite E. apply IH.
Qed.

(** How far a call has come, and what the variables then hold. *)
Definition acts_of (c : call) : list act :=
  [AOpts thema_opts; ASpec (c_spec c); AImports []; ATest; AClient; AMapBegin; AMapEnd; AMapRange].
Definition ok_opts (g : globals) : Prop := o_compat (g_opts g) = o_compat thema_opts /\ o_addl (g_opts g) = [].
Definition ok_spec (g : globals) : Prop := exists s, plain_spec s /\ g_spec g = Some s.
Definition ok_imports (g : globals) : Prop := g_imports g = [].
Definition stage (c : call) (g : globals) (t : thread) : Prop :=
  agrees (eval (own c "Response") (c_body c)) (t_body t) /\
  exists j, j <= 8 /\ t_acts t = skipn j (acts_of c) /\
    (1 <= j -> ok_opts g) /\ (2 <= j -> ok_spec g) /\ (3 <= j -> ok_imports g).

Definition keeps (g g' : globals) : Prop :=
  (ok_opts g -> ok_opts g') /\ (ok_spec g -> ok_spec g') /\ (ok_imports g -> ok_imports g').

Lemma stage_keeps c g g' t : keeps g g' -> stage c g t -> stage c g' t.
Proof. intros [K1 [K2 K3]] [A [j [L [T [B1 [B2 B3]]]]]]. split; [exact A|]. exists j. repeat split; auto; intros; try apply K1; try apply K2; try apply K3; auto. Qed.

Lemma stage_start c g : by_thema u c -> stage c g (generate c).
Proof.
  intros T. split; [apply types_agree; [exact T|apply T]|]. exists 0. destruct T as [O _]. unfold generate. rewrite O.
  repeat split; try lia.
Qed.

Lemma agrees_step x g b : ok_opts g -> ok_spec g -> ok_imports g -> agrees x b ->
  agrees x match b with
    | BDone r => BDone r
    | BCompat k => k (o_compat (g_opts g))
    | BAddl k => k (o_addl (g_opts g))
    | BClient k => k (o_client (g_opts g))
    | BSuffix k => k (g_suffix g)
    | BImports k => k (g_imports g)
    | BSpec k => k (g_spec g)
    end.
Proof.
  intros [O1 O2] [s [P E]] I A. destruct A as [|k H|k H|k H|k H].
  - constructor.
  - rewrite O1. exact H.
  - rewrite O2. exact H.
  - rewrite I. exact H.
  - rewrite E. auto.
Qed.

Lemma stage_step c g t g' t' : by_thema u c -> stage c g t -> advance g t = Some (g', t') -> stage c g' t' /\ keeps g g'.
Proof.
  intros [_ [P _]] [A [j [L [T [B1 [B2 B3]]]]]] H. unfold advance in H. rewrite T in H.
  assert (D : j = 0 \/ j = 1 \/ j = 2 \/ j = 3 \/ j = 4 \/ j = 5 \/ j = 6 \/ j = 7 \/ j = 8) by lia.
  destruct D as [->|[->|[->|[->|[->|[->|[->|[->| ->]]]]]]]]; cbn [skipn acts_of] in H.
  - injection H as <- <-. split.
    + split; [exact A|]. exists 1. cbn. repeat split; try lia.
    + repeat split; auto.
  - injection H as <- <-. split.
    + split; [exact A|]. exists 2. cbn. repeat split; try lia; intros; [apply B1; lia|apply B1; lia|]. exists (c_spec c). auto.
    + split; [auto|split; [|auto]]. intros _. exists (c_spec c). auto.
  - injection H as <- <-. split.
    + split; [exact A|]. exists 3. cbn. repeat split; try lia; intros; [apply B1; lia|apply B1; lia|]. apply B2; lia.
    + split; [auto|split; [auto|]]. intros _. reflexivity.
  - injection H as <- <-. split; [|split; auto]. destruct (String.eqb (o_client (g_opts g)) "").
    + split; [exact A|]. exists 4. cbn. repeat split; try lia; intros; try (apply B1; lia); try (apply B2; lia); apply B3; lia.
    + split; [exact A|]. exists 5. cbn. repeat split; try lia; intros; try (apply B1; lia); try (apply B2; lia); apply B3; lia.
  - injection H as <- <-. split; [|split; auto].
    split; [exact A|]. exists 5. cbn. repeat split; try lia; intros; try (apply B1; lia); try (apply B2; lia); apply B3; lia.
  - destruct (g_writing g); [discriminate|]. injection H as <- <-. split; [|split; auto].
    split; [exact A|]. exists 6. cbn. repeat split; try lia; intros; try (apply B1; lia); try (apply B2; lia); apply B3; lia.
  - injection H as <- <-. split; [|split; auto].
    split; [exact A|]. exists 7. cbn. repeat split; try lia; intros; try (apply B1; lia); try (apply B2; lia); apply B3; lia.
  - destruct (g_writing g); [discriminate|]. injection H as <- <-. split; [|split; auto].
    split; [exact A|]. exists 8. cbn. repeat split; try lia; intros; try (apply B1; lia); try (apply B2; lia); apply B3; lia.
  - injection H as <- <-. split; [|split; auto].
    split; [cbn [t_body]; apply agrees_step; [apply B1; lia|apply B2; lia|apply B3; lia|exact A]|].
    exists 8. cbn. repeat split; try lia; intros; try (apply B1; lia); try (apply B2; lia); apply B3; lia.
Qed.

Lemma replace_stage g g' cs : forall ts i c t, keeps g g' -> Forall2 (fun c t => stage c g t) cs ts ->
  nth_error cs i = Some c -> stage c g' t -> Forall2 (fun c t => stage c g' t) cs (replace i t ts).
Proof.
  induction cs as [|x cs IH]; intros ts i c t K F N S'; [destruct i; discriminate|].
  inversion F as [|? y ? ts' S0 F']; subst. destruct i as [|i]; cbn in N |- *.
  - injection N as ->. constructor; [exact S'|]. clear -F' K. induction F'; constructor; auto. eapply stage_keeps; eauto.
  - constructor; [eapply stage_keeps; eauto|]. eapply IH; eauto.
Qed.

Lemma run_stages cs : (forall c, In c cs -> by_thema u c) -> forall schedule g ts g' ts',
  Forall2 (fun c t => stage c g t) cs ts -> run schedule g ts = Some (g', ts') -> Forall2 (fun c t => stage c g' t) cs ts'.
Proof.
  intros T schedule. induction schedule as [|i s IH]; intros g ts g' ts' F R; cbn in R.
  - injection R as -> ->. exact F.
  - destruct (nth_error ts i) as [t|] eqn:N; [|eauto]. destruct (advance g t) as [[g1 t1]|] eqn:A; [|discriminate].
    assert (E : exists c, nth_error cs i = Some c /\ stage c g t).
    { clear -F N. revert i N. induction F as [|c y cs ts S0 F IH]; intros [|i] N; cbn in *; try discriminate.
      - injection N as ->. eauto.
      - eauto. }
    destruct E as [c [N' S0]]. destruct (stage_step c g t g1 t1 (T c (nth_error_In _ _ N')) S0 A) as [S1 K].
    eapply IH; [|exact R]. eapply replace_stage; eauto.
Qed.

Lemma same_time cs schedule g g' ts i c t r : (forall c, In c cs -> by_thema u c) ->
  run schedule g (map generate cs) = Some (g', ts) -> nth_error cs i = Some c -> nth_error ts i = Some t -> returned t r ->
  r = eval (own c "Response") (c_body c).
Proof.
  intros T R N M [A B].
  assert (F : Forall2 (fun c t => stage c g t) cs (map generate cs)).
  { clear -T. induction cs as [|x cs IH]; constructor; [apply stage_start, T; left; reflexivity|apply IH; intros; apply T; right; assumption]. }
  pose proof (run_stages cs T schedule g _ g' ts F R) as F'.
  assert (S0 : stage c g' t).
  { clear -F' N M. revert i N M. induction F' as [|x y cs ts S0 F IH]; intros [|i] N M; cbn in *; try discriminate.
    - injection N as ->. injection M as ->. exact S0.
    - eauto. }
  destruct S0 as [G _]. rewrite B in G. inversion G. reflexivity.
Qed.
End Thema.

(** *** Two calls that end the program *)

Definition hello : call := mkCall thema_opts (Some (mkComponents [] [] [] [])) (BDone (Ok "package a")).
Lemma hello_thema u : by_thema u hello.
Proof. split; [reflexivity|]. split; [|constructor]. eexists. split; [reflexivity|]. intros n c []. Qed.

Lemma crash u c d : by_thema u c -> by_thema u d -> exists schedule, run schedule zero (map generate [c; d]) = None.
Proof.
  intros [C _] [D _]. exists [0; 0; 0; 0; 0; 0; 1; 1; 1; 1; 1; 1]. cbn [map]. unfold generate. rewrite C, D. reflexivity.
Qed.

Lemma crash_refuted u : exists cs schedule, (forall c, In c cs -> by_thema u c) /\ run schedule zero (map generate cs) = None.
Proof.
  destruct (crash u hello hello (hello_thema u) (hello_thema u)) as [s H]. exists [hello; hello], s. split; [|exact H].
  intros c [<-|[<-|[]]]; apply hello_thema.
Qed.

(** A suffix one call asks for is that of later calls which ask for none. *)
Definition asks (x : string) : call :=
  mkCall (mkOpts (o_compat thema_opts) [] "" x []) (Some (mkComponents [] [] [] [])) (BSuffix (fun y => BDone (Ok ("Get" ++ y)%string))).
Lemma suffix_kept : turns zero [asks ""] [Ok "GetResponse"] /\ turns zero [asks "Reply"; asks ""] [Ok "GetReply"; Ok "GetReply"].
Proof. split; apply (turns_expected _ zero _ eq_refl); reflexivity. Qed.
