(** Sequences that are not as they should be, lenses to be written, and the
    comments of functions: facts for C91 and C92. *)
From Verif Require Import Prelude Strings Version Util LineageProofs Rewrite CueAst CueAstProofs.
Local Open Scope string_scope.
Local Open Scope list_scope.

(** A field with this name. *)
Definition named (s : string) (c : node) : Prop :=
  exists i l cs, c = Node i (KField l) cs /\ (l = LIdent s \/ l = LString s).

(** What is wrong with a sequence: it has no list of schemas. *)
Inductive flawed (q : node) : string -> Prop :=
| flawed_kind : (node_kind q <> KStruct) -> (forall fn, node_kind q <> KFile fn) ->
    flawed q "not an *ast.File or *ast.StructLit"
| flawed_none : (node_kind q = KStruct \/ exists fn, node_kind q = KFile fn) ->
    (forall c, In c (children q) -> ~ named "schemas" c) ->
    flawed q "no field with label ""schemas"""
| flawed_value b f a : (node_kind q = KStruct \/ exists fn, node_kind q = KFile fn) ->
    children q = b ++ f :: a -> (forall c, In c b -> ~ named "schemas" c) -> named "schemas" f ->
    (forall v, hd_error (children f) = Some v -> node_kind v <> KList) ->
    flawed q "expected ""schemas"" field to be an ast.ListLit, got *ast.Field".

Lemma named_iff s c : isFieldWithLabel c s = true <-> named s c.
Proof.
  unfold isFieldWithLabel, named. destruct c as [i k cs]. split.
  - destruct k as [|l| | | | | | | |]; try discriminate. intros H. exists i, l, cs. split; [reflexivity|].
    destruct l; cbn in H; try discriminate; apply String.eqb_eq in H; subst; auto.
  - intros (i' & l & cs' & [= -> -> ->] & [-> | ->]); cbn; apply String.eqb_refl.
Qed.
Lemma unnamed_iff s c : isFieldWithLabel c s = false <-> ~ named s c.
Proof. rewrite <- named_iff. destruct (isFieldWithLabel c s); split; congruence. Qed.
Lemma find_none {A} (f : A -> bool) l : (forall c, In c l -> f c = false) -> find f l = None.
Proof.
  induction l as [|x l IH]; intros H; [reflexivity|]. cbn. rewrite (H x) by (left; reflexivity).
  apply IH. intros c I. apply H. right; exact I.
Qed.
Lemma not_list v : node_kind v <> KList -> is_list v = false.
Proof. destruct v as [i k cs]. cbn. destruct k; congruence. Qed.

Lemma list_flawed q m : flawed q m -> listForField q "schemas" = Err (new_err m).
Proof.
  intros H. unfold listForField, getFieldByLabel. destruct H as [K1 K2|K N|b f a K E B F V].
  - destruct (node_kind q) as [fn| | | | | | | | |]; try reflexivity; [exfalso; exact (K2 fn eq_refl)|congruence].
  - rewrite find_none by (intros c I; apply unnamed_iff; exact (N c I)).
    destruct K as [-> | [fn ->]]; reflexivity.
  - rewrite E, (find_mid (fun c => isFieldWithLabel c "schemas"));
      [|apply Forall_forall; intros c I; apply unnamed_iff; exact (B c I)|apply named_iff; exact F].
    assert (W : field_value f = None \/ exists v, field_value f = Some v /\ is_list v = false).
    { unfold field_value. destruct (hd_error (children f)) as [v|] eqn:Q; [right|left; reflexivity].
      exists v. split; [reflexivity|]. apply not_list. exact (V v eq_refl). }
    destruct K as [-> | [fn ->]]; cbn [bind]; (destruct W as [-> | (v & -> & ->)]; reflexivity).
Qed.

Lemma insert_flawed lin l q m sch v :
  hd_error (all_seqs lin) = Some l -> nth_error (children l) (N.to_nat (fst v)) = Some q -> flawed q m ->
  insertSchemaNodeAs lin sch v = Err (new_err m).
Proof.
  intros L Q F. unfold insertSchemaNodeAs, schemaListFor, elts. rewrite findSeqs_first, L.
  assert (LT : (N.to_nat (fst v) < length (children l))%nat) by (apply nth_error_Some; congruence).
  destruct (fst v =? N.of_nat (length (children l)))%N eqn:E; [apply N.eqb_eq in E; lia|].
  destruct (N.of_nat (length (children l)) <=? fst v)%N eqn:E2; [apply N.leb_le in E2; lia|].
  apply index_ok in Q. rewrite Q. cbn [bind]. rewrite (list_flawed q m F). reflexivity.
Qed.
Lemma append_flawed lin l b q m sch lv :
  hd_error (all_seqs lin) = Some l -> children l = b ++ [q] -> flawed q m ->
  appendlin lin sch lv true = Err (new_err ("could not get lineage's latest seq's schema list: " ++ m)).
Proof.
  intros L Q F. unfold appendlin, latestSchemaList, elts. rewrite findSeqs_first, L, Q, app_length. cbn [length].
  replace (Z.of_nat (length b + 1) - 1)%Z with (Z.of_nat (length b)) by lia.
  rewrite indexZ_nat.
  assert (I : index (b ++ [q]) (length b) = Ok q).
  { apply index_ok. rewrite nth_error_app2, Nat.sub_diag by lia. reflexivity. }
  rewrite I. cbn [bind]. rewrite (list_flawed q m F). reflexivity.
Qed.
Lemma append_empty lin l sch lv :
  hd_error (all_seqs lin) = Some l -> children l = [] -> appendlin lin sch lv true = Panic.
Proof. intros L E. unfold appendlin, latestSchemaList, elts. rewrite findSeqs_first, L, E. reflexivity. Qed.

Lemma sequences_flawed lin l : hd_error (all_seqs lin) = Some l ->
  (forall q m sch v, nth_error (children l) (N.to_nat (fst v)) = Some q -> flawed q m ->
     insertSchemaNodeAs lin sch v = Err (new_err m)) /\
  (forall b q m sch lv, children l = b ++ [q] -> flawed q m ->
     appendlin lin sch lv true = Err (new_err ("could not get lineage's latest seq's schema list: " ++ m))) /\
  (forall sch lv, children l = [] -> appendlin lin sch lv true = Panic).
Proof.
  intros L. split; [|split].
  - intros q m sch v Q F. exact (insert_flawed lin l q m sch v L Q F).
  - intros b q m sch lv Q F. exact (append_flawed lin l b q m sch lv L Q F).
  - intros sch lv E. exact (append_empty lin l sch lv L E).
Qed.
Lemma flawed_case :
  let seqs q := Node 1 KStruct [Node 2 (KField (LIdent "seqs")) [Node 3 KList [q]]] in
  let q1 := Node 4 KList [Node 5 (KField (LIdent "schemas")) [Node 6 KList []]] in
  let q2 := Node 4 KStruct [Node 5 (KField (LIdent "schemas")) [Node 6 KStruct []]] in
  flawed q1 "not an *ast.File or *ast.StructLit" /\
  flawed q2 "expected ""schemas"" field to be an ast.ListLit, got *ast.Field" /\
  hd_error (all_seqs (seqs q1)) = Some (Node 3 KList [q1]) /\
  hd_error (all_seqs (seqs q2)) = Some (Node 3 KList [q2]).
Proof.
  cbv zeta. split; [constructor; discriminate|]. split; [|split; reflexivity].
  eapply (flawed_value _ []); [left; reflexivity|reflexivity|intros c []| |].
  - eexists _, _, _. split; [reflexivity|left; reflexivity].
  - intros v [= <-]. discriminate.
Qed.

(** Where a lens is to be written, it says so. *)
Definition to_write (r : node) : Prop :=
  exists m c, In m (preorder r) /\ node_kind m = KOther "_|_" /\ children m = [c] /\
    node_kind c = KComment "// TODO implement this lens".
Lemma lenses_said p : exists s l i es, new_fields p = [s; l] /\ children l = [Node i KList es] /\
  Forall2 (fun x q => nl_result x = BTodo -> exists r, read ["result"] q = Some r /\ to_write r) (snd p) es.
Proof.
  destruct p as [a b]. eexists _, _, _, _. split; [reflexivity|]. split; [reflexivity|]. cbn [snd].
  induction b as [|x b IH]; [constructor|]. cbn [map]. constructor; [|exact IH].
  intros E. unfold lens_node. rewrite E. eexists. split; [reflexivity|].
  unfold to_write. cbn. eexists _, _. split; [right; right; left; reflexivity|]. repeat split.
Qed.
