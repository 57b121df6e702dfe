(** The types of request bodies. *)
From Coq Require Import Permutation.
From Verif Require Import Prelude Strings Version GenName GenType OpDefs RespCase RespCaseProofs OpBodies OpBodiesSpec OpBodiesProofs.
Local Open Scope string_scope.
Local Open Scope list_scope.

Lemma app_inj_l a : forall b c, (a ++ b)%string = (a ++ c)%string -> b = c.
Proof. induction a as [|x a IH]; intros b c H; [exact H|]. injection H as H. exact (IH b c H). Qed.

Section Names.
Context {T E X : Type}.
Variable u : unicode.
Variable ref : T -> string.
Variable goSchema : option T -> list string -> outcome (goschema X).
Variable withForm : X -> X.

Lemma request_types op required (cs : list (string * content T E)) defs types : NoDup (map fst cs) ->
  (forall c x, In (c, x) cs -> body_typed u ref goSchema op c x) ->
  (forall c c' tag, In c (map fst cs) -> In c' (map fst cs) -> tagged c tag -> tagged c' tag -> c = c') ->
  generateBodyDefinitions u ref goSchema withForm op (Some (required, cs)) = Ok (defs, types) ->
  (forall b tag, In b defs -> tagged (b_content b) tag -> body_type_name op b = (op ++ tag ++ "RequestBody")%string) /\
  forall b b', In b defs -> In b' defs -> b_tag b <> "" -> body_type_name op b = body_type_name op b' -> b_content b = b_content b'.
Proof.
  intros N Ty U Q. destruct (bodies_exact u ref goSchema withForm op required cs N Ty) as [ws [ds [P [I [G F]]]]].
  rewrite G in Q. injection Q as <- <-.
  assert (D : forall b, In b (map fst ds) -> In (b_content b) (map fst cs) /\
     ((untagged (b_content b) /\ b_tag b = "") \/ tagged (b_content b) (b_tag b))).
  { intros b J. apply in_map_iff in J. destruct J as [d [<- J]].
    assert (K : exists cx, In cx ws /\ defines u ref goSchema withForm op required cx (fst d) (snd d)).
    { clear - F J. induction F as [|w e ws ds H F IH]; [destruct J|]. destruct J as [<-|J].
      - exists w. split; [left; reflexivity | exact H].
      - destruct (IH J) as (cx & L & M). exists cx. split; [right; exact L | exact M]. }
    destruct K as (cx & L & M). apply (Permutation_in _ P) in L. apply (List.in_map fst) in L.
    destruct d as [b' ts]. cbn [fst snd] in *. inversion M; subst; cbn [fst b_content b_tag] in *; split; auto. }
  assert (O : forall c t t', tagged c t -> tagged c t' -> t = t').
  { intros c t t' H H'. pose proof (body_tag_iff c) as [TS _].
    apply TS in H, H'. congruence. }
  split.
  - intros b tag J H. destruct (D b J) as [_ [[UT _]|H']].
    + exfalso. destruct UT as (U1 & U2 & U3 & U4). inversion H; subst; contradiction.
    + unfold body_type_name. rewrite (O _ _ _ H H'). reflexivity.
  - intros b b' J J' Z Y. unfold body_type_name in Y. apply app_inj_l in Y. apply app_inj_r in Y.
    destruct (D b J) as [L [[_ V]|H]]; [contradiction|]. destruct (D b' J') as [L' [[_ V]|H']]; [congruence|].
    apply (U _ _ (b_tag b)); try assumption. rewrite Y. exact H'.
Qed.
End Names.
