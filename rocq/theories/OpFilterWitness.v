(** Documents whose operations are filtered. *)
From Verif Require Import Prelude Prune PruneProofs PruneWitness OpFilter OpFilterProofs.
Local Open Scope string_scope.
Local Open Scope list_scope.

Definition answers (n : string) : oper :=
  Oper [] None [("200", Some (mkO "" (Some (mkResp [] [("application/json", Some (mkMedia (Some (to_schema n)) []))] []))))] [].
Definition by_id : oref param := mkO "" (Some (mkParam (Some (to_schema "Id")) [] [])).

(** Two tagged operations and an untagged one, with a schema each; the path has a
    parameter. *)
Definition pets : titem :=
  mkItem [Some by_id]
         [("GET", Some (mkTop ["pets"; "public"] (answers "Pet"))); ("PUT", None);
          ("DELETE", Some (mkTop ["admin"; "public"] (answers "Gone"))); ("POST", Some (mkTop [] (answers "New")))].
Definition pets_doc : tdoc :=
  mkTdoc [("/pets", pets)]
         (Some (mkComps [("Pet", Some plain); ("Gone", Some plain); ("New", Some plain); ("Id", Some plain)] [] [] [] [] [] [] [] [])).

Lemma pets_once : methods_once pets_doc.
Proof.
  intros l i [E|[]]. injection E as <- <-. cbn. repeat constructor; cbn; intros H;
    repeat match type of H with _ \/ _ => destruct H as [H|H] | False => destruct H | _ = _ => discriminate H end.
Qed.

Lemma pets_flat k n k' n' : comp_at false (plain_doc pets_doc) k' n' (addr k n) -> False.
Proof.
  intros [c [E H]]. injection E as <-. destruct k'; hunt;
    try match goal with E : false = true |- _ => discriminate E end;
    try match goal with E : "" = addr _ _ |- _ => destruct k; discriminate E end.
Qed.

Lemma pets_case : forall fuel,
  stays ["admin"] ["public"] ["pets"; "public"] /\ ~ stays ["admin"] ["public"] ["admin"; "public"] /\ ~ stays ["admin"] ["public"] [] /\
  (exists d', prepare (2 + fuel) ["admin"] ["public"] false pets_doc = Ok d' /\
     defines d' KSchema "Pet" /\ defines d' KSchema "Id" /\ ~ defines d' KSchema "Gone" /\ ~ defines d' KSchema "New").
Proof.
  intros fuel. split; [|split; [|split]].
  - split; [|intros _; exists "public"; split; [right; left; reflexivity|left; reflexivity]].
    intros t [<- | [<- | []]] [H|[]]; discriminate H.
  - intros [A _]. apply (A "admin"); left; reflexivity.
  - intros [_ B]. destruct B as (t & [] & _). discriminate.
  - eexists. split; [vm_compute; reflexivity|]. repeat split.
    + eexists. split; [reflexivity|]. left. reflexivity.
    + eexists. split; [reflexivity|]. right. left. reflexivity.
    + intros [c [E I]]. injection E as <-. destruct I as [I|[I|[]]]; discriminate I.
    + intros [c [E I]]. injection E as <-. destruct I as [I|[I|[]]]; discriminate I.
Qed.

(** All the operations go, what the parameter of the path refers to stays. *)
Lemma parameters_stay :
  exists d exc, methods_once d /\ (forall l i m o, In (l, i) (td_paths d) -> In (m, Some o) (i_ops i) -> ~ stays exc [] (t_tags o)) /\
    forall fuel, exists d' n, prepare (2 + fuel) exc [] false d = Ok d' /\ defines d' KSchema n.
Proof.
  exists (mkTdoc [("/pets", mkItem [Some by_id] [("GET", Some (mkTop ["pets"] (answers "Pet")))])]
                 (Some (mkComps [("Pet", Some plain); ("Id", Some plain)] [] [] [] [] [] [] [] []))), ["pets"].
  split; [|split].
  - intros l i [E|[]]. injection E as <- <-. repeat constructor. intros [].
  - intros l i m o [E|[]] I [A _]. injection E as <- <-. destruct I as [E|[]]. injection E as <- <-. apply (A "pets"); left; reflexivity.
  - intros fuel. eexists. exists "Id". split; [vm_compute; reflexivity|]. eexists. split; [reflexivity|left; reflexivity].
Qed.
