(** The cases of contents that are not read. *)
From Verif Require Import Prelude Strings Version GenName GenType OpDefs GenTypeProofs GenTypeFacts RespCase RespCaseSpec RespCaseProofs.
Local Open Scope string_scope.
Local Open Scope list_scope.

Section Notes.
Context {T : Type}.
Variable u : unicode.
Variable ref : T -> string.
Variable goSchema : T -> list string -> outcome (string * string).

Definition noted (rs : responses T) (c : clause) : Prop :=
  match c with
  | Reads _ _ _ _ => True
  | Leaves n t => exists cs c, In (n, Some cs) rs /\ In c (map fst cs) /\ (forall w, ~ In (c, w) known) /\
                    isMediaTypeJson c = false /\ t = ("// Content-type (" ++ c ++ ") unsupported")%string
  end.
Definition all_noted (rs : responses T) (m : list (string * clause)) : Prop := forall e, In e m -> noted rs (snd e).

Lemma put_noted rs k c m : noted rs c -> all_noted rs m -> all_noted rs (put k c m).
Proof. intros V H e [<-|I]; [exact V|]. apply filter_In in I. apply H. tauto. Qed.

Lemma one_noted rs d m c cs : In (r_status d, Some cs) rs -> In c (map fst cs) ->
  all_noted rs (fst m) /\ all_noted rs (snd m) ->
  all_noted rs (fst (unmarshal1 d m c)) /\ all_noted rs (snd (unmarshal1 d m c)).
Proof.
  intros I J [H1 H2]. unfold unmarshal1. destruct (String.eqb (r_type d) "any"); [auto|].
  destruct (stringInArray c contentTypesJSON || isMediaTypeJson c) eqn:X1.
  { destruct (String.eqb (r_media d) c); cbn [fst snd]; split; try assumption; apply put_noted; cbn; auto. }
  destruct (stringInArray c contentTypesYAML) eqn:X2.
  { destruct (String.eqb (r_media d) c); cbn [fst snd]; split; try assumption; apply put_noted; cbn; auto. }
  destruct (stringInArray c contentTypesXML) eqn:X3.
  { destruct (String.eqb (r_media d) c); cbn [fst snd]; split; try assumption; apply put_noted; cbn; auto. }
  cbn [fst snd]. split; [exact H1|]. apply put_noted; [|exact H2]. apply orb_false_iff in X1 as [X1 X4].
  exists cs, c. split; [exact I|]. split; [exact J|]. split; [|split; [exact X4 | reflexivity]].
  intros w K. apply known_word in K. intuition congruence.
Qed.

Lemma loop_noted rs d cs : In (r_status d, Some cs) rs -> forall l, (forall c, In c l -> In c (map fst cs)) ->
  forall m, all_noted rs (fst m) /\ all_noted rs (snd m) ->
  all_noted rs (fst (fold_left (unmarshal1 d) l m)) /\ all_noted rs (snd (fold_left (unmarshal1 d) l m)).
Proof.
  intros I. induction l as [|c l IH]; intros L m H; [exact H|]. cbn [fold_left]. apply IH.
  - intros x X. apply L. right. exact X.
  - apply (one_noted rs d m c cs); auto. apply L. left. reflexivity.
Qed.

Lemma cases_noted op (rs : responses T) cs : proper rs -> responseCases u ref goSchema op rs = Ok cs ->
  forall n t, In (Leaves n t) cs -> exists ks c, In (n, Some ks) rs /\ In c (map fst ks) /\ (forall w, ~ In (c, w) known) /\
    isMediaTypeJson c = false /\ t = ("// Content-type (" ++ c ++ ") unsupported")%string.
Proof.
  intros PR E. unfold responseCases in E. destruct (getResponseTypeDefinitions u ref goSchema op rs) as [ds| | |] eqn:DS; try discriminate.
  assert (V : Forall (fun d => exists ks x, In (r_status d, Some ks) rs /\ In (r_media d, Some x) ks) ds).
  { apply Forall_forall. intros d I. apply (ds_in u ref goSchema op rs ds DS) in I. destruct I as (n & c & m & s & I & J & D).
    destruct D as [<- D]. exists c, s. split; [exact I|]. destruct D as [<- _]. exact J. }
  assert (Q : forall m, all_noted rs (fst m) /\ all_noted rs (snd m) ->
    all_noted rs (fst (fold_left (unmarshal rs) ds m)) /\ all_noted rs (snd (fold_left (unmarshal rs) ds m))).
  { clear - V PR. induction V as [|d ds (ks & x & I & J) F IH]; intros m H; [exact H|]. cbn [fold_left]. apply IH.
    unfold unmarshal. rewrite (lookup_found rs _ _ (proj1 PR) I). destruct ks as [|k ks]; [destruct J|].
    apply (loop_noted rs d (k :: ks) I); [|exact H]. intros c K. apply in_map_iff in K. destruct K as [e [<- K]].
    rewrite by_key_in in K. apply List.in_map. exact K. }
  destruct (Q ([], [])) as [H1 H2]; [split; intros e []|]. injection E as <-.
  intros n t I. apply in_app_or in I.
  destruct I as [I|I]; apply in_map_iff in I; destruct I as [e [X I]]; rewrite by_key_in in I;
    [pose proof (H1 e I) as Y|pose proof (H2 e I) as Y]; rewrite X in Y; exact Y.
Qed.
End Notes.
