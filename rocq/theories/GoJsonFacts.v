(** Further facts about GoJson.v: what is kept is valid, the types are those of the
    pass, and data that gets lost. *)
From Verif Require Import Prelude Strings Version Util UtilProofs GenName GenNameProofs GenSpellProofs
  GenCommentProofs GenType GenTypeSpec GenTypeProofs GenDeclProofs GenTypeFacts GoJson GoJsonSpec GoJsonProofs.
From Verif Require Gocode.
Require Import ZArith.
Local Open Scope string_scope.
Local Open Scope list_scope.

(** *** The pass *)

(** The types of Gocode.v that trees are. *)
Fixpoint go_of (t : gty) : Gocode.gtype :=
  match t with
  | GId n | GAs n _ => match split_str n "." with [x; s] => Gocode.TSel x s | _ => Gocode.TIdent n end
  | GPtr t => Gocode.TStar (go_of t)
  | GSlice t => Gocode.TArray (go_of t)
  | GMap t => Gocode.TMap (Gocode.TIdent "string") (go_of t)
  | GStruct fs addl un =>
      Gocode.TStruct (map (fun f => ([f_name (fst f)], go_of (snd f))) fs
        ++ match addl with
           | Some t => [(["AdditionalProperties"], Gocode.TMap (Gocode.TIdent "string") (go_of t))]
           | None => []
           end
        ++ (if un then [(["union"], Gocode.TSel "json" "RawMessage")] else []))
  end.

Lemma id_form n : (exists x s, go_of (GId n) = Gocode.TSel x s) \/ go_of (GId n) = Gocode.TIdent n.
Proof.
  cbn [go_of]. destruct (split_str n ".") as [|x [|s [|y r]]]; eauto.
Qed.

Lemma field_pass all t : go_of (unptr_field all t) = Gocode.depoint_field all (go_of t).
Proof.
  destruct t as [n|n t|t| | |]; try reflexivity.
  - destruct (id_form n) as [[x [s E]]|E]; cbn [unptr_field]; rewrite E; reflexivity.
  - cbn [unptr_field]. change (go_of (GAs n t)) with (go_of (GId n)). destruct (id_form n) as [[x [s E]]|E]; rewrite E; reflexivity.
  - cbn [unptr_field go_of Gocode.depoint_field Gocode.depoint]. destruct all; [reflexivity|].
    destruct t as [n|n t| | | |]; try reflexivity; (destruct (id_form n) as [[x [s E]]|E]; cbn [go_of] in *; rewrite E; reflexivity).
Qed.

Fixpoint gsize (t : gty) : nat :=
  match t with
  | GId _ | GAs _ _ => 1
  | GPtr t | GSlice t | GMap t => S (gsize t)
  | GStruct fs addl _ => S (fold_right (fun f n => gsize (snd f) + n) 0 fs + match addl with Some t => gsize t | None => 0 end)
  end.
Lemma gsize_field (fs : list (fld * gty)) f : In f fs -> gsize (snd f) <= fold_right (fun f n => gsize (snd f) + n) 0 fs.
Proof. induction fs as [|g fs IH]; [intros []|]. cbn [fold_right]. intros [->|I]; [lia|]. specialize (IH I). lia. Qed.

Lemma unptr_pass all n : forall t, gsize t <= n -> go_of (unptr all t) = Gocode.visit (Gocode.depoint_field all) (go_of t).
Proof.
  induction n as [|n IH]; intros t L; [destruct t; cbn in L; lia|].
  destruct t as [k|k t|t|t|t|fs addl un]; cbn [gsize] in L.
  - cbn [unptr]. destruct (id_form k) as [[x [s E]]|E]; rewrite E; reflexivity.
  - cbn [unptr]. change (go_of (GAs k t)) with (go_of (GId k)). destruct (id_form k) as [[x [s E]]|E]; rewrite E; reflexivity.
  - cbn [unptr go_of Gocode.visit]. rewrite IH by lia. reflexivity.
  - cbn [unptr go_of Gocode.visit]. rewrite IH by lia. reflexivity.
  - cbn [unptr go_of Gocode.visit]. rewrite IH by lia. reflexivity.
  - cbn [unptr go_of Gocode.visit]. f_equal. rewrite map_app, !map_map. f_equal.
    + apply map_ext_in. intros f I. cbn [fst snd]. rewrite field_pass, IH; [reflexivity|]. pose proof (gsize_field fs f I). lia.
    + rewrite map_app. f_equal; [|destruct un; reflexivity].
      destruct addl as [t|]; [|reflexivity]. cbn [option_map map fst snd Gocode.visit Gocode.depoint_field]. rewrite IH by lia. reflexivity.
Qed.

(** *** Validity *)

Lemma keeps_valid env l np (ENV : forall n s, In (n, Inl s) l -> env (ref_to n) = s) n : forall j, jsize j <= n -> forall r,
  keeps env l np r j -> valid l r j.
Proof.
  assert (OT : forall b, objectlike b = true -> b_type b = "" \/ b_type b = "object").
  { intros b O. unfold objectlike in O. apply orb_true_iff in O. destruct O as [O|O]; apply String.eqb_eq in O; auto. }
  induction n as [|n IH]; intros j L r K; [destruct j; cbn in L; lia|].
  assert (X : forall s, keeps env l np (Inl s) j -> valid l (Inl s) j).
  { intros s Ks. inversion Ks as [|b0 p0 i0 a0 j0 O A KS|b0 p0 i0 a0 l0 A EN L1 L2|b0 i0 a0 ms KD INC L1 L2|b0 i0 j0 KD KA|b0 p0 i0 ms O NE HB ND GN INC PR AB]; subst.
    - unfold keeps_scalar in KS. destruct j; try contradiction.
      + destruct KS. constructor. assumption.
      + constructor. destruct KS as [[E _]|[E _]]; auto.
      + destruct KS. constructor. assumption.
    - unfold arraylike in A. apply String.eqb_eq in A. constructor; [exact A|].
      intros r' x E I. apply IH; [pose proof (size_arr l0 x I); lia|apply L1; assumption].
    - assert (O : objectlike b0 = true).
      { destruct (objectlike b0) eqn:O; [reflexivity|]. cbn [kind_of] in KD. rewrite O in KD.
        repeat match type of KD with context [if ?c then _ else _] => destruct c; try discriminate end. }
      apply valid_object.
      + exact O.
      + apply increasing_nodup, INC.
      + intros k r' x [].
      + intros k _ [].
      + intros k x r' I _ E. apply IH; [pose proof (size_obj ms k x I); lia|apply (L1 r' k x E I)].
      + intros k x I _. cbn [kind_of] in KD. rewrite O in KD. destruct (b_has b0); [auto|]. destruct a0; [right; left; discriminate|].
        cbn [orb] in KD. destruct (String.eqb_spec (b_type b0) "object"); [auto|discriminate].
    - apply valid_any. cbn [kind_of] in KD. destruct (objectlike b0) eqn:O.
      + destruct (OT b0 O) as [E|E]; [exact E|]. rewrite E, orb_true_r in KD. discriminate.
      + repeat match type of KD with context [if ?c then _ else _] => destruct c; try discriminate end.
    - apply valid_object.
      + exact O.
      + apply increasing_nodup, INC.
      + intros k r' x I J. destruct (PR k x J) as [r0 [I0 H]].
        assert (r0 = r') as ->. { pose proof (lookup_in k r0 p0 ND I0). pose proof (lookup_in k r' p0 ND I). congruence. }
        destruct H as [[-> [_ H]]|[_ [H _]]]; [|apply IH; [pose proof (size_obj ms k x J); lia|exact H]].
        assert (L1 : jsize JNull <= n) by (pose proof (size_obj ms k JNull J); cbn in *; lia).
        destruct H as [[H _]|[_ H]]; [|apply IH; assumption].
        destruct (GN _ I) as [_ KN]. cbn [snd] in KN. destruct r' as [q|s']; [|constructor; exact H].
        destruct KN as [m [s' [-> IM]]]. apply (valid_ref l m s'); [exact IM|]. cbn [value] in H. rewrite (ENV m s' IM) in H.
        constructor. exact H.
      + intros k RQ I. destruct (in_dec string_dec k (map fst ms)) as [Y|N]; [exact Y|]. exfalso.
        apply in_map_iff in I. destruct I as [[k' r'] [E I]]. cbn [fst] in E. subst k'.
        destruct (AB k r' I N) as [F _]. assert (Z : existsb (String.eqb k) (b_required b0) = true).
        { apply existsb_exists. exists k. split; [exact RQ|apply String.eqb_refl]. } congruence.
      + intros k x r' _ _ E. discriminate.
      + intros k x I NI. exfalso. apply NI. destruct (PR k x I) as [r' [J _]]. apply in_map_iff. exists (k, r'). auto. }
  destruct r as [q|s]; [|apply X, K]. inversion K; subst. econstructor; eauto.
Qed.

(** *** Data that is not kept *)

Definition one_doc (s : schema) : list (string * sref) := [("A", Inl s)].

(** The data [j] becomes [j'] in the type [A] of a document with the schema only. *)
Definition becomes (np : bool) (s : schema) (j j' : json) : Prop :=
  forall u env, exists m, forall k, m <= k ->
    through (doc_types u env np (one_doc s)) k (GId (schemaNameToTypeName u "A")) j = Ok j'.

Definition base_of (t : string) (req : list string) (has null : bool) : base :=
  mkBase t "" "" [] req has null false false false false false false false false.
Definition leaf (t : string) (null : bool) : sref := Inl (Sch (base_of t [] false null) [] None None None None None).
Definition list_of (r : sref) : sref := Inl (Sch (base_of "array" [] false false) [] (Some r) None None None None).
Definition object_with (req : list string) (props : list (string * sref)) (addl : option sref) : schema :=
  Sch (base_of "object" req false false) props None addl None None None.

Ltac run := intros u env; exists 8; intros k L; do 8 (destruct k as [|k]; [lia|]); vm_compute; reflexivity.

(** Members that are no properties. *)
Definition extra_schema := object_with ["a"] [("a", leaf "string" false)] (Some (leaf "integer" false)).
Lemma extra_lost np : becomes np extra_schema
  (JObj [("a", JStr "x"); ("b", JNum 1)]) (JObj [("a", JStr "x")]).
Proof. destruct np; run. Qed.

(** Numbers. *)
Definition number_schema := object_with ["a"] [("a", leaf "number" false)] None.
Lemma number_lost np : becomes np number_schema (JObj [("a", JNum 16777217)]) (JObj [("a", JNum 16777216)]).
Proof. destruct np; run. Qed.

(** Optional lists and maps that are empty. *)
Definition list_schema := object_with [] [("a", list_of (leaf "string" false))] None.
Lemma list_lost np : becomes np list_schema (JObj [("a", JArr [])]) (JObj []).
Proof. destruct np; run. Qed.

(** Optional properties that may be null. *)
Definition null_schema := object_with [] [("a", leaf "string" true)] None.
Lemma null_added : becomes false null_schema (JObj []) (JObj [("a", JNull)]).
Proof. run. Qed.

(** Null in lists. *)
Definition nulls_schema := object_with ["a"] [("a", list_of (leaf "string" true))] None.
Lemma nulls_lost np : becomes np nulls_schema (JObj [("a", JArr [JNull])]) (JObj [("a", JArr [JStr ""])]).
Proof. destruct np; run. Qed.

(** Names that are no tags. *)
Definition comma_schema := object_with ["a,b"] [("a,b", leaf "string" false)] None.
Lemma comma_lost np : becomes np comma_schema (JObj [("a,b", JStr "x")]) (JObj [("a", JStr "")]).
Proof. destruct np; run. Qed.
Definition dash_schema := object_with ["-"] [("-", leaf "string" false)] None.
Lemma dash_lost np : becomes np dash_schema (JObj [("-", JStr "x")]) (JObj []).
Proof. destruct np; run. Qed.

(** Without optional pointers: empty values, null, and objects that are missing. *)
Definition optional_schema :=
  object_with [] [("a", leaf "boolean" false); ("b", Inl (object_with [] [("c", leaf "string" false)] None));
                  ("d", leaf "integer" true)] None.
Lemma pointers_lost : becomes true optional_schema
  (JObj [("a", JBool false); ("d", JNull)]) (JObj [("b", JObj []); ("d", JNum 0)]).
Proof. run. Qed.
Lemma pointers_kept : becomes false optional_schema
  (JObj [("a", JBool false); ("d", JNull)]) (JObj [("a", JBool false); ("d", JNull)]).
Proof. run. Qed.

Definition int_schema := object_with ["a"] [("a", leaf "integer" false)] None.
Lemma int_fails np : forall u env, exists m, forall k, m <= k ->
  exists e, through (doc_types u env np (one_doc int_schema)) k (GId (schemaNameToTypeName u "A"))
    (JObj [("a", JNum (2 ^ 63))]) = Err e.
Proof. destruct np; intros u env; exists 8; intros k L; do 8 (destruct k as [|k]; [lia|]); eexists; vm_compute; reflexivity. Qed.

(** All of this data is valid. *)
Ltac members := cbn in *; repeat match goal with
  | H : _ \/ _ |- _ => destruct H
  | H : False |- _ => destruct H
  | H : (_, _) = (_, _) |- _ => inversion H; clear H; subst
  end.
Ltac object := apply valid_object;
  [reflexivity
  |cbn; repeat (apply NoDup_cons; [cbn; intuition discriminate|]); apply NoDup_nil
  |intros; members
  |intros; members; subst; auto
  |intros; members; try discriminate
  |intros; members; auto];
  try solve [exfalso; match goal with H : ~ _ |- _ => apply H; cbn; auto end].

Lemma all_valid :
  valid (one_doc extra_schema) (Inl extra_schema) (JObj [("a", JStr "x"); ("b", JNum 1)]) /\
  valid (one_doc number_schema) (Inl number_schema) (JObj [("a", JNum 16777217)]) /\
  valid (one_doc list_schema) (Inl list_schema) (JObj [("a", JArr [])]) /\
  valid (one_doc null_schema) (Inl null_schema) (JObj []) /\
  valid (one_doc nulls_schema) (Inl nulls_schema) (JObj [("a", JArr [JNull])]) /\
  valid (one_doc comma_schema) (Inl comma_schema) (JObj [("a,b", JStr "x")]) /\
  valid (one_doc dash_schema) (Inl dash_schema) (JObj [("-", JStr "x")]) /\
  valid (one_doc optional_schema) (Inl optional_schema) (JObj [("a", JBool false); ("d", JNull)]) /\
  valid (one_doc int_schema) (Inl int_schema) (JObj [("a", JNum (2 ^ 63))]).
Proof.
  repeat match goal with |- _ /\ _ => split end.
  - object.
    + apply valid_str. reflexivity.
    + match goal with H : Some _ = Some _ |- _ => injection H as <- end. apply valid_num. left. reflexivity.
    + right. left. discriminate.
  - object. apply valid_num; right; reflexivity.
  - object. apply valid_list; [reflexivity|]. intros r x _ [].
  - object.
  - object. apply valid_list; [reflexivity|].
    intros r x E [<-|[]]. injection E as <-. apply valid_null. reflexivity.
  - object. apply valid_str; reflexivity.
  - object. apply valid_str; reflexivity.
  - object; [apply valid_bool; reflexivity|apply valid_null; reflexivity].
  - object. apply valid_num; left; reflexivity.
Qed.

(** Members whose names differ from those of properties in the case of letters. *)
Definition case_schema := object_with [] [("a", leaf "string" false)] (Some (leaf "string" false)).
Lemma case_taken np :
  valid (one_doc case_schema) (Inl case_schema) (JObj [("a", JStr "x"); ("A", JStr "y")]) /\
  becomes np case_schema (JObj [("a", JStr "x"); ("A", JStr "y")]) (JObj [("a", JStr "y")]).
Proof.
  split; [|destruct np; run].
  object; [apply valid_str; reflexivity| |right; left; discriminate].
  match goal with H : Some _ = Some _ |- _ => injection H as <- end. apply valid_str; reflexivity.
Qed.
