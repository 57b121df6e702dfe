(** Documents that pruning leaves with too much or too little. *)
From Verif Require Import Prelude Prune PruneProofs.
Local Open Scope string_scope.
Local Open Scope list_scope.

(** Every reference written in the document names a component of it. *)
Definition resolves (d : swagger) : Prop :=
  forall x, path_at true d x \/ (exists k n, comp_at true d k n x) -> exists k n, x = addr k n /\ defines d k n.

Definition plain : sref := SRef "" (Some (Scm [] [] [] None None [] None [])).
Definition to_schema (n : string) : sref := SRef (addr KSchema n) None.
Definition schemas (ps : list (string * item)) (ss : list (string * option sref)) : swagger :=
  mkSwagger ps (Some (mkComps ss [] [] [] [] [] [] [] [])).

(** A schema that refers to itself. *)
Definition loop_doc : swagger :=
  schemas [] [("Node", Some (SRef "" (Some (Scm [] [] [] None None [("next", Some (to_schema "Node"))] None []))))].

Lemma loop_unused k n : used loop_doc k n -> k = KSecurity.
Proof.
  induction 1 as [n|k n H|k n k' n' _ IH H].
  - reflexivity.
  - destruct H as [l [i [[] _]]].
  - subst k'. destruct H as [c [E [r [I _]]]]. injection E as <-. destruct I.
Qed.

Lemma unused_stays :
  exists d n, defines d KSchema n /\ ~ used d KSchema n /\
    forall fuel, exists d', pruneUnusedComponents (S fuel) d = Ok d' /\ defines d' KSchema n.
Proof.
  exists loop_doc, "Node". split; [eexists; split; [reflexivity|left; reflexivity]|].
  split; [intros U; apply loop_unused in U; discriminate|].
  intros fuel. eexists. split; [vm_compute; reflexivity|]. eexists. split; [reflexivity|left; reflexivity].
Qed.

(** A path with a response whose header has content of schema ["A"]. *)
Definition header : oref param :=
  mkO "" (Some (mkParam None [] [("application/json", Some (mkMedia (Some (to_schema "A")) []))])).
Definition header_doc : swagger :=
  schemas [("/x", Item [] [Some (Oper [] None [("200", Some (mkO "" (Some (mkResp [("X-A", Some header)] [] []))))] [])])]
          [("A", Some plain)].

(** A path with a response of schema ["Pet"], whose discriminator leads to ["Cat"]. *)
Definition pet : sref := SRef "" (Some (Scm [] [] [] None None [] None [("cat", addr KSchema "Cat")])).
Definition disc_doc : swagger :=
  schemas [("/x", Item [] [Some (Oper [] None
             [("200", Some (mkO "" (Some (mkResp [] [("application/json", Some (mkMedia (Some (to_schema "Pet")) []))] []))))] [])])]
          [("Pet", Some pet); ("Cat", Some plain)].

Ltac hunt :=
  repeat match goal with
  | H : context [header] |- _ => unfold header in H
  | H : context [pet] |- _ => unfold pet in H
  | H : context [plain] |- _ => unfold plain in H
  | H : context [to_schema _] |- _ => unfold to_schema in H
  | H : False |- _ => contradiction
  | H : _ /\ _ |- _ => destruct H
  | H : _ \/ _ |- _ => destruct H
  | H : exists _, _ |- _ => destruct H
  | H : In _ _ |- _ => progress cbn in H
  | H : Some _ = Some _ |- _ => injection H; clear H; intros; subst
  | H : (_, _) = (_, _) |- _ => injection H; clear H; intros; subst
  | H : (_, _) = (_, _) |- _ => discriminate H
  | H : Some _ = None |- _ => discriminate H
  | H : None = Some _ |- _ => discriminate H
  | H : child _ _ |- _ => inversion H; clear H; subst
  | H : at_item _ _ _ |- _ => inversion H; clear H; subst
  | H : at_oper _ _ _ |- _ => inversion H; clear H; subst
  | H : at_callback _ _ _ |- _ => inversion H; clear H; subst
  | H : at_s _ _ _ |- _ => inversion H; clear H; subst
  | H : at_response _ _ _ |- _ => unfold at_response, at_o in H; cbn in H
  | H : at_header _ _ _ |- _ => unfold at_header, at_o in H; cbn in H
  | H : at_param _ _ _ |- _ => unfold at_param, at_o in H; cbn in H
  | H : at_content _ _ _ |- _ => unfold at_content in H; cbn in H
  | H : at_examples _ _ |- _ => unfold at_examples in H; cbn in H
  | H : at_schema _ _ _ |- _ => unfold at_schema in H; cbn in H
  | H : in_map _ _ _ |- _ => unfold in_map in H; cbn in H
  | H : path_at _ _ _ |- _ => unfold path_at in H; cbn in H
  | H : "" <> "" |- _ => contradiction H; reflexivity
  | H : ?x <> "", E : "" = ?x |- _ => contradiction H; symmetry; exact E
  end.

Lemma header_resolves : resolves header_doc.
Proof.
  intros x [H|[k [n [c [E H]]]]].
  - hunt; exists KSchema, "A"; (split; [reflexivity|eexists; split; [reflexivity|left; reflexivity]]).
  - injection E as <-. destruct k; hunt.
Qed.

Lemma disc_resolves : resolves disc_doc.
Proof.
  intros x [H|[k [n [c [E H]]]]].
  - hunt; exists KSchema, "Pet"; (split; [reflexivity|eexists; split; [reflexivity|left; reflexivity]]).
  - injection E as <-. destruct k; hunt;
      exists KSchema, "Cat"; (split; [reflexivity|eexists; split; [reflexivity|right; left; reflexivity]]).
Qed.

Lemma dangling :
  (exists d, resolves d /\ forall fuel, exists d' n,
     pruneUnusedComponents (2 + fuel) d = Ok d' /\ path_at true d' (addr KSchema n) /\ ~ defines d' KSchema n) /\
  (exists d m, resolves d /\ path_at false d (addr KSchema m) /\ forall fuel, exists d' n,
     pruneUnusedComponents (2 + fuel) d = Ok d' /\ comp_at true d' KSchema m (addr KSchema n) /\ ~ defines d' KSchema n).
Proof.
  split.
  - exists header_doc. split; [exact header_resolves|]. intros fuel. eexists. exists "A".
    split; [vm_compute; reflexivity|]. split.
    + eexists. eexists. split; [left; reflexivity|]. eapply ai_oper; [left; reflexivity|].
      eapply ao_response; [left; reflexivity|]. right. split; [reflexivity|]. eexists. split; [reflexivity|].
      left. eexists. eexists. split; [left; reflexivity|]. right. split; [reflexivity|]. eexists. split; [reflexivity|].
      right. split; [reflexivity|]. right. eexists. eexists. split; [left; reflexivity|]. left. eexists.
      split; [reflexivity|]. apply as_here. discriminate.
    + intros [c [E I]]. injection E as <-. destruct I.
  - exists disc_doc, "Pet". split; [exact disc_resolves|]. split.
    { eexists. eexists. split; [left; reflexivity|]. eapply ai_oper; [left; reflexivity|].
      eapply ao_response; [left; reflexivity|]. right. split; [reflexivity|]. eexists. split; [reflexivity|].
      right. left. eexists. eexists. split; [left; reflexivity|]. left. eexists. split; [reflexivity|]. apply as_here. discriminate. }
    intros fuel. eexists. exists "Cat". split; [vm_compute; reflexivity|]. split.
    + eexists. split; [reflexivity|]. eexists. split; [left; reflexivity|].
      eapply as_mapping; [reflexivity|left; reflexivity].
    + intros [c [E I]]. injection E as <-. destruct I as [I|[]]. discriminate.
Qed.

(** ["A"] is used by a path and uses ["B"]; ["C"] uses ["B"] and is used by nothing. *)
Definition chain_doc : swagger :=
  schemas [("/x", Item [Some (mkO "" (Some (mkParam (Some (to_schema "A")) [] [])))] [])]
          [("C", Some (SRef "" (Some (Scm [] [] [Some (to_schema "B")] None None [] None []))));
           ("A", Some (SRef "" (Some (Scm [] [] [] None (Some (to_schema "B")) [] None []))));
           ("B", Some plain)].
Definition chain_rank (k : kind) (n : string) : nat :=
  match k with KSchema => if n =? "B" then 1 else 0 | _ => 0 end.

Lemma chain_case :
  (forall k n k' n', comp_at false chain_doc k' n' (addr k n) -> chain_rank k' n' < chain_rank k n) /\
  (forall fuel, exists d', pruneUnusedComponents (2 + fuel) chain_doc = Ok d' /\
     defines d' KSchema "A" /\ defines d' KSchema "B" /\ ~ defines d' KSchema "C").
Proof.
  split.
  - intros k n k' n' [c [E H]]. injection E as <-. destruct k'; hunt;
      try match goal with E : false = true |- _ => discriminate E end;
      try match goal with E : "" = addr _ _ |- _ => destruct k; discriminate E end;
      try match goal with E : addr _ _ = "" |- _ => destruct k; discriminate E end.
    all: match goal with E : (kind_name ?k ++ _)%string = _ |- _ =>
           destruct k; cbn in E; try discriminate E; injection E as ->; cbn; lia end.
  - intros fuel. eexists. split; [vm_compute; reflexivity|].
    split; [eexists; split; [reflexivity|left; reflexivity]|].
    split; [eexists; split; [reflexivity|right; left; reflexivity]|].
    intros [c [E I]]. injection E as <-. cbn in I. destruct I as [I|[I|[]]]; discriminate.
Qed.
