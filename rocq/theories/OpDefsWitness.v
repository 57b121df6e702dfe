(** Documents with operations. *)
From Verif Require Import Prelude Strings Version GenName GenNameProofs GenType Uri UriProofs OpDefs OpDefsProofs.
Local Open Scope string_scope.
Local Open Scope list_scope.

Definition ascii_names : unicode :=
  Build_unicode (fun _ => false) (fun _ => false) (fun _ => false) (fun _ => false) (fun _ => false) (fun r => r).

(** The identifiers that a document gives, and the one at a place. *)
Definition given_ids {P A} (doc : document P A) : list string :=
  flat_map (fun e => map (fun o => o_id (snd o)) (pi_ops (snd e))) (do_paths doc).
Definition given_at {P A} (doc : document P A) (pm : string * string) : option string :=
  match lookup (fst pm) (do_paths doc) with
  | Some item => option_map o_id (lookup (snd pm) (pi_ops item))
  | None => None
  end.

Lemma named u m p given id : identified u m p given id ->
  (all is_ascii m = true -> all is_ascii p = true -> all is_ascii given = true -> word (toCamelCase u id)) /\
  (word given -> toCamelCase u id = given).
Proof.
  intros H. split; [intros M Q G; exact (identified_word u m p given id M Q G H)|]. intros W. exact (identified_kept u m p given W id H).
Qed.

Definition op (id : string) : operation (param_def nat) unit := mkOperation id [] None None tt.
Definition clash : document (param_def nat) unit :=
  mkDoc [("/a-b", mkPath [] [("GET", op "")]); ("/a/b", mkPath [] [("GET", op "")]);
         ("/p", mkPath [] [("GET", op "list-pets"); ("PUT", op "listPets")])] [].

Lemma same_names u : exists (doc : document (param_def nat) unit) out x y x' y',
  operationDefinitions u (fun _ p => Ok p) (fun id _ => Ok id) (fun id _ => Ok id) doc = Ok out /\
  In x out /\ In y out /\ place_of x <> place_of y /\ d_id x = d_id y /\
  In x' out /\ In y' out /\ place_of x' <> place_of y' /\ d_id x' = d_id y' /\
  NoDup (filter (fun id => negb (String.eqb id "")) (given_ids doc)) /\
  given_at doc (place_of x) <> Some "" /\ given_at doc (place_of x') = Some "" /\ given_at doc (place_of y') = Some "".
Proof.
  exists clash. eexists. do 4 eexists. split; [vm_compute; reflexivity|].
  split; [right; right; left; reflexivity|]. split; [right; right; right; left; reflexivity|].
  split; [discriminate|]. split; [reflexivity|].
  split; [left; reflexivity|]. split; [right; left; reflexivity|]. split; [discriminate|]. split; [reflexivity|].
  split; [vm_compute; repeat constructor; cbn; intros H; repeat destruct H as [H|H]; try discriminate H; destruct H|].
  split; [discriminate|]. split; reflexivity.
Qed.

(** One of the requirements is met in all its schemes. *)
Definition met (have : list string) (rs : list requirement) : Prop := exists r, In r rs /\ forall s, In s r -> In (fst s) have.
Lemma same_security : exists either both have, describeSecurityDefinition either = describeSecurityDefinition both /\
  met have either /\ ~ met have both.
Proof.
  exists [[("key", [])]; [("login", ["read"])]], [[("key", []); ("login", ["read"])]], ["key"]. split; [reflexivity|]. split.
  - exists [("key", [])]. split; [left; reflexivity|]. intros s [<-|[]]. left. reflexivity.
  - intros (r & [<-|[]] & H). destruct (H ("login", ["read"])) as [E|[]]; [right; left; reflexivity|discriminate E].
Qed.

Definition shop : document (param_def nat) unit :=
  mkDoc [("/up", mkPath [] [("POST", op "1-up")]);
         ("/shop/{item}", mkPath [mkParam "item" "path" 1]
            [("PUT", mkOperation "put_it" [mkParam "x-a" "header" 2] (Some []) (Some true) tt);
             ("GET", mkOperation "" [mkParam "page" "query" 3] None (Some false) tt)])]
        [[("key", [])]].
Lemma shop_case u : NoDup (map fst (do_paths shop)) /\
  operationDefinitions u (fun _ p => Ok p) (fun id _ => Ok id) (fun id _ => Ok id) shop = Ok
    [mkDef "GetShopItem" "GET" "/shop/{item}" [mkParam "item" "path" 1] [] [mkParam "page" "query" 3] [] [("key", [])] false "GetShopItem" "GetShopItem";
     mkDef "PutIt" "PUT" "/shop/{item}" [mkParam "item" "path" 1] [mkParam "x-a" "header" 2] [] [] [] true "PutIt" "PutIt";
     mkDef "N1Up" "POST" "/up" [] [] [] [] [("key", [])] false "N1Up" "N1Up"].
Proof. split; [repeat constructor; cbn; intuition discriminate|vm_compute; reflexivity]. Qed.
