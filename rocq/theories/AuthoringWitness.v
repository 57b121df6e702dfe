(** Adding a field with a default, and the lineages of the authoring guide. *)
From Verif Require Import Prelude Version VersionProofs ValidateErr Native Split Lineage LineageProofs BindFacts.
From Verif Require Import CueFrag CueSem CueProofs HydrateSem CueEval CueEvalSem CueEvalWitness Authoring AuthoringProofs.
Local Open Scope string_scope.
Local Open Scope list_scope.

Lemma has_field_at : forall fs l f, field_of l fs = Some f -> has_field l fs.
Proof.
  intros fs l [[k o] v] E. apply field_of_some in E as [E1 E2]. cbn in E2. subst k. exists o, v. exact E1.
Qed.

Lemma field_of_snoc : forall fs l k o v, l <> k -> field_of l (fs ++ [(k, o, v)]) = field_of l fs.
Proof.
  intros fs l k o v N. unfold field_of. induction fs as [|f fs IH]; cbn.
  - destruct (String.eqb_spec l k); [contradiction|reflexivity].
  - destruct (String.eqb l (flabel f)); auto.
Qed.

(** Data valid for a closed struct stays valid when a field with a default is
    added. *)
Lemma added_default_valid : forall fs l v x d, ~ has_field l fs -> eval v None = Con x ->
  valid (VStruct fs None) d -> valid (VStruct (fs ++ [(l, false, v)]) None) d.
Proof.
  intros fs l v x d Hl Ev [r H]. destruct d as [a|ls|df]; try discriminate.
  rewrite eval_VStruct in H. apply of_struct_con in H as [ds [-> H]].
  assert (K : forall kx, In kx df -> fst kx <> l).
  { intros kx Hk E. apply (in_map (fun kx => (fst kx, eval_at fs None (fst kx) (snd kx)))) in Hk.
    assert (Hi := in_or_app _ (flat_map (fun f => if fopt f || has_label (flabel f) df then []
      else [(flabel f, eval (snd f) None)]) fs) _ (or_introl Hk)).
    rewrite H in Hi. apply in_map_iff in Hi as [y [Hy _]]. injection Hy as _ Hy.
    unfold eval_at in Hy. rewrite E, (field_of_absent fs l Hl) in Hy. discriminate. }
  assert (NL : has_label l df = false).
  { apply not_true_is_false. intros E. apply has_label_in in E as [y Hy]. exact (K _ Hy eq_refl). }
  exists (DStruct (ds ++ [(l, x)])). rewrite eval_VStruct. apply of_struct_con. exists (ds ++ [(l, x)]).
  split; [reflexivity|]. rewrite map_app, <- H. rewrite flat_map_app. rewrite <- app_assoc.
  f_equal; [|f_equal].
  - apply map_ext_in. intros kx Hk. f_equal. unfold eval_at. rewrite field_of_snoc by (apply K; exact Hk). reflexivity.
  - cbn [flat_map app]. cbn [fopt flabel fst snd]. unfold flabel; cbn [fst]. rewrite NL, Ev. reflexivity.
Qed.

(** *** The lineages of the guide *)

Definition first_only : val := VStruct [("firstfield", false, str)] None.
Definition second (o : bool) (v : val) : val := VStruct [("firstfield", false, str); ("secondfield", o, v)] None.
Definition int42 : val := VOr [(false, VType TInt); (true, VAtom (AInt 42))].
Definition ship (ma mi : N) (v : val) : cval :=
  CLin "Ship" [((Some 0, Some 0), (first_only, first_only)); ((Some ma, Some mi), (v, v))]%N [].
Definition ship_bind (c : cval) : outcome (lineage cval) :=
  BindLineage (cue_fragment ferrs) 7 false CLinDef (Atom c) [].

(** Both halves fail, for every added default. *)
Lemma default_not_compatible : forall name fs body l v body' errs id,
  ~ has_field l fs ->
  let with_default ma mi := BindLineage (cue_fragment errs) id false CLinDef
    (Atom (CLin name [((Some 0, Some 0), (VStruct fs None, body));
                      ((Some ma, Some mi), (VStruct (fs ++ [(l, false, v)]) None, body'))]%N [])) [] in
  with_default 0%N 1%N = Err (mkErr [ErrInvalidLineage] (minor_text (0, 1) (0, 0))%N) /\
  exists r, with_default 1%N 0%N = Ok r.
Proof.
  intros name fs body l v body' errs id Hl.
  assert (E : exists l0, BindLineage (cue_fragment errs) id false CLinDef
    (Atom (CLin name ([] ++ [((Some 0, Some 0), (VStruct fs None, body))]) []))%N [] = Ok l0 /\ l_allv l0 = [(0, 0)%N]).
  { eexists. split; [lazy; reflexivity|reflexivity]. }
  destruct E as [l0 [E A0]].
  assert (Br : subs (VStruct (fs ++ [(l, false, v)]) None) (VStruct fs None) = false).
  { apply breaks_subs. apply (b_added l v); [exact Hl|]. apply in_or_app. right. left. reflexivity. }
  split.
  - destruct (publish_one errs id false name [] [] [] l0 0 0 (VStruct fs None) body 0 1
      (VStruct (fs ++ [(l, false, v)]) None) body' E eq_refl eq_refl) as [_ [_ K]].
    + left. unfold vlt. cbn. lia.
    + rewrite A0. reflexivity.
    + apply K; [lia|exact Br].
  - destruct (publish_one errs id false name [] [] [] l0 0 0 (VStruct fs None) body 1 0
      (VStruct (fs ++ [(l, false, v)]) None) body' E eq_refl eq_refl) as [K _].
    + left. unfold vlt. cbn. lia.
    + rewrite A0. reflexivity.
    + apply K. exact Br.
Qed.

Lemma guide_default :
  exists l' body errs id,
    (forall d, valid first_only d -> valid (second false int42) d) /\
    BindLineage (cue_fragment errs) id false CLinDef (Atom (CLin "Ship"
      [((Some 0, Some 0), (first_only, body)); ((Some 0, Some 1), (second false int42, body))]%N [])) []
      = Err (mkErr [ErrInvalidLineage] (minor_text (0, 1) (0, 0))%N) /\
    BindLineage (cue_fragment errs) id false CLinDef (Atom (CLin "Ship"
      [((Some 0, Some 0), (first_only, body)); ((Some 1, Some 0), (second false int42, body))]%N [])) [] = Ok l'.
Proof.
  assert (Hl : ~ has_field "secondfield" [("firstfield", false, str)])
    by (intros [o [w [K|[]]]]; discriminate).
  destruct (default_not_compatible "Ship" [("firstfield", false, str)] VTop "secondfield" int42 VTop ferrs 7%N Hl)
    as [K1 [r K2]].
  exists r, VTop, ferrs, 7%N. split; [|split; [exact K1|exact K2]].
  intros d. apply (added_default_valid [("firstfield", false, str)] "secondfield" int42 (DAtom (AInt 42)) d Hl).
  reflexivity.
Qed.

Lemma default_removed :
  exists d old new errs id l,
    breaks old (VStruct [("n", false, VOr [(true, VAtom (AInt 2)); (false, VType TInt)])] None) /\
    old = VStruct [("n", false, VOr [(true, VAtom d); (false, VType TInt)])] None /\
    new = VStruct [("n", false, VType TInt)] None /\
    (exists r, eval old (Some (DStruct [])) = Con r) /\ (forall r, eval new (Some (DStruct [])) <> Con r) /\
    BindLineage (cue_fragment errs) id false CLinDef (Atom (CLin "n"
      [((Some 0, Some 0), (old, old)); ((Some 0, Some 1), (new, new))]%N [])) [] = Ok l.
Proof.
  exists (AInt 1), (VStruct [("n", false, VOr [(true, VAtom (AInt 1)); (false, VType TInt)])] None),
    (VStruct [("n", false, VType TInt)] None), ferrs, 7%N. eexists. split.
  { apply (b_field "n" false (VOr [(true, VAtom (AInt 1)); (false, VType TInt)])
      false (VOr [(true, VAtom (AInt 2)); (false, VType TInt)])).
    - constructor; [intros []|constructor].
    - left. reflexivity.
    - left. reflexivity.
    - apply (b_default (AInt 1)).
      + left. reflexivity.
      + exists (VAtom (AInt 2)). left. reflexivity.
      + intros v [E|[E|[]]]; [injection E as <-; reflexivity|discriminate]. }
  split; [reflexivity|]. split; [reflexivity|]. split; [eexists; reflexivity|].
  split; [intros r; discriminate|]. lazy. reflexivity.
Qed.

(** A change of every compatible kind at once. *)
Definition old_ship : val :=
  VStruct [("name", false, str); ("mode", false, VOr [(true, VAtom (AString "foo")); (false, VAtom (AString "bar"))]);
           ("size", false, VRange (Some 0%Z) (Some 10%Z)); ("crew", false, VList [] (Some (VRange (Some 0%Z) None)));
           ("inner", false, VStruct [("x", false, VType TInt)] None)] None.
Definition new_ship : val :=
  VStruct [("name", true, str); ("added", true, VTop);
           ("mode", false, VOr [(true, VAtom (AString "foo")); (false, VAtom (AString "bar")); (false, VType TInt)]);
           ("size", false, VRange (Some (-5)%Z) None); ("crew", false, VList [] (Some (VType TInt)));
           ("inner", true, VStruct [("x", true, VType TNumber); ("y", true, str)] None)] None.

Lemma ship_widens : widens old_ship new_ship.
Proof.
  apply w_struct; [repeat (constructor; [cbn; intuition discriminate|]); constructor|].
  apply fw_field; [auto|apply w_same; exact I|]. apply fw_added. apply fw_field; [auto| |].
  { apply (w_alternatives [(true, VAtom (AString "foo")); (false, VAtom (AString "bar"))] [(false, VType TInt)]).
    cbn. auto. }
  apply fw_field; [auto| |].
  { apply w_range; [right; exists 0%Z, (-5)%Z; repeat split; lia|left; reflexivity]. }
  apply fw_field; [auto| |].
  { apply w_elements. apply w_int. }
  apply fw_field; [auto| |apply fw_nil].
  apply w_struct; [repeat (constructor; [cbn; intuition discriminate|]); constructor|].
  apply fw_field; [auto| |].
  { apply w_type. intros [] H; try discriminate; reflexivity. }
  apply fw_added. apply fw_nil.
Qed.

(** The alternative of a union removed two levels down, among other changes. *)
Definition less_ship : val :=
  VStruct [("added", true, VTop); ("inner", true, VStruct [("x", false, VAtom (AInt 3))] None)] (Some VTop).

Lemma ship_breaks : breaks old_ship less_ship.
Proof.
  apply (b_field "inner" false (VStruct [("x", false, VType TInt)] None) true
    (VStruct [("x", false, VAtom (AInt 3))] None)).
  - repeat (constructor; [cbn; intuition discriminate|]); constructor.
  - cbn. auto 8.
  - cbn. auto.
  - apply (b_field "x" false (VType TInt) false (VAtom (AInt 3))).
    + constructor; [intros []|constructor].
    + left. reflexivity.
    + left. reflexivity.
    + apply (b_data _ _ (DAtom (AInt 4))); reflexivity.
Qed.
