(** Specification of the conversion to JSON Schema by navigation, and of the
    data a schema accepts; proofs. *)
From Verif Require Import Prelude JSchema.
Local Open Scope string_scope.
Local Open Scope list_scope.

(** *** Navigation *)
Inductive step := Lab (k : string) | Idx (i : nat).

Definition first (k : string) (fs : list (string * node)) : option node :=
  option_map snd (find (fun f => String.eqb (fst f) k) fs).

Definition child (n : node) (s : step) : option node :=
  match n, s with
  | NStruct fs, Lab k => first k fs
  | NList es, Idx i => nth_error es i
  | NFile ds, Idx i => nth_error ds i
  | _, _ => None
  end.

Fixpoint nav (n : node) (p : list step) : option node :=
  match p with
  | [] => Some n
  | s :: r => match child n s with Some c => nav c r | None => None end
  end.

(** A schema object: a struct whose "type" is a literal. *)
Definition literal_type (n : node) : option lit :=
  match n with
  | NStruct fs => match first "type" fs with Some (NLit l) => Some l | _ => None end
  | _ => None
  end.

(** Where a schema object of a type has its sub-schemas. *)
Definition subschemas (l : lit) : list string :=
  match l with
  | LStr "object" => ["properties"; "additionalProperties"]
  | LStr "array" => ["items"]
  | _ => []
  end.

Definition openapi_only : list string :=
  ["deprecated"; "discriminator"; "example"; "externalDocs"; "nullable"; "readOnly"; "writeOnly"; "xml"].

(** What becomes of the node at a path. *)
Inductive role :=
| Walked                 (* not a schema object: shape kept *)
| Converted (outer : bool) (* a schema object; outer: none encloses it *)
| Kept                   (* below a keyword that is left alone *)
| TypeField              (* the "type" keyword of a schema object *)
| Dropped.               (* below a removed keyword *)

Fixpoint role_at (outer : bool) (n : node) (p : list step) : role :=
  match p with
  | [] => match literal_type n with Some _ => Converted outer | None => Walked end
  | s :: r =>
      match literal_type n with
      | None => match child n s with Some c => role_at outer c r | None => Walked end
      | Some l =>
          match s with
          | Idx _ => Kept
          | Lab k =>
              if existsb (String.eqb k) openapi_only then Dropped
              else if String.eqb k "type" then TypeField
              else if existsb (String.eqb k) (subschemas l)
                   then match child n s with Some c => role_at false c r | None => Walked end
                   else Kept
          end
      end
  end.

Definition same_shape (a b : node) : Prop :=
  match a, b with
  | NLit x, NLit y => x = y
  | NList x, NList y | NFile x, NFile y => length x = length y
  | NStruct x, NStruct y => map fst x = map fst y
  | _, _ => False
  end.

Definition nullable (fs : list (string * node)) : bool :=
  match first "nullable" fs with Some (NLit LTrue) => true | _ => false end.

(** What a schema object becomes, apart from its sub-schemas. *)
Definition converted (outer : bool) (fs fs' : list (string * node)) : Prop :=
  map fst fs' = filter (fun k => negb (existsb (String.eqb k) openapi_only)) (map fst fs)
                ++ (if outer then ["$schema"] else []) /\
  (forall t, first "type" fs = Some t ->
     first "type" fs' = Some (if nullable fs then NList [t; NLit (LStr "null")] else t)) /\
  (outer = true -> exists init, fs' = init ++ [("$schema", NLit (LStr "http://json-schema.org/draft-04/schema#"))]).

(** *** Lookups *)
Lemma first_cons k k0 v r : first k ((k0, v) :: r) = if String.eqb k0 k then Some v else first k r.
Proof. unfold first. cbn [find fst]. destruct (String.eqb k0 k); reflexivity. Qed.

Lemma getField_first fs k : getField fs k = first k fs.
Proof.
  induction fs as [|[k0 v] r IH]; [reflexivity|]. rewrite first_cons. cbn [getField].
  destruct (String.eqb k0 k); [reflexivity|exact IH].
Qed.

Lemma first_app k a b : first k (a ++ b) = match first k a with Some v => Some v | None => first k b end.
Proof.
  induction a as [|[k0 v] r IH]; [reflexivity|].
  cbn [app]. rewrite !first_cons. destruct (String.eqb k0 k); [reflexivity|exact IH].
Qed.

Lemma first_in k fs v : first k fs = Some v -> In (k, v) fs.
Proof.
  induction fs as [|[k0 w] r IH]; [discriminate|]. rewrite first_cons.
  destruct (String.eqb_spec k0 k) as [->|]; intro H.
  - injection H as ->. left; reflexivity.
  - right; auto.
Qed.

Lemma traverse_nth {A B} (f : A -> outcome B) l l' :
  traverse f l = Ok l' -> length l' = length l /\
  (forall i x, nth_error l i = Some x -> exists y, nth_error l' i = Some y /\ f x = Ok y).
Proof.
  revert l'. induction l as [|x r IH]; cbn [traverse]; intros l' H.
  - injection H as <-. split; [reflexivity|]. intros [|i] y; discriminate.
  - destruct (f x) as [y| | |] eqn:F; cbn [bind] in H; try discriminate.
    destruct (traverse f r) as [ys| | |] eqn:T; cbn [bind] in H; try discriminate.
    injection H as <-. destruct (IH _ eq_refl) as [L N]. split; [cbn; lia|].
    intros [|i] z; cbn.
    + intro E. injection E as <-. eauto.
    + apply N.
Qed.

Lemma on_all_spec f fs fs' :
  on_all f fs = Ok fs' ->
  map fst fs' = map fst fs /\
  (forall k v, first k fs = Some v -> exists v', first k fs' = Some v' /\ f v = Ok v').
Proof.
  revert fs'. induction fs as [|[k v] r IH]; cbn [on_all]; intros fs' H.
  - injection H as <-. split; [reflexivity|]. discriminate.
  - destruct (f v) as [v'| | |] eqn:F; cbn [bind] in H; try discriminate.
    destruct (on_all f r) as [r'| | |] eqn:T; cbn [bind] in H; try discriminate.
    injection H as <-. destruct (IH _ eq_refl) as [L N]. split; [cbn; f_equal; exact L|].
    intros k0 v0. rewrite !first_cons. destruct (String.eqb k k0); [|apply N].
    intro E. injection E as <-. eauto.
Qed.

Lemma eqb_existsb_filter k k0 labels :
  existsb (String.eqb k) (filter (fun l => negb (String.eqb k0 l)) labels) =
  existsb (String.eqb k) labels && negb (String.eqb k0 k).
Proof.
  induction labels as [|l r IH]; [reflexivity|]. cbn [filter existsb].
  destruct (String.eqb_spec k0 l) as [->|D]; cbn [negb existsb].
  - rewrite IH. destruct (String.eqb_spec k l) as [->|]; cbn [orb andb].
    + rewrite String.eqb_refl, Bool.andb_false_r. reflexivity.
    + reflexivity.
  - rewrite IH. destruct (String.eqb_spec k l) as [->|]; cbn [orb andb]; [|reflexivity].
    destruct (String.eqb_spec k0 l); [contradiction|reflexivity].
Qed.

Lemma on_first_spec f labels fs fs' :
  on_first f labels fs = Ok fs' ->
  map fst fs' = map fst fs /\
  (forall k v, first k fs = Some v -> existsb (String.eqb k) labels = true ->
     exists v', first k fs' = Some v' /\ f v = Ok v') /\
  (forall k, existsb (String.eqb k) labels = false -> first k fs' = first k fs).
Proof.
  revert labels fs'. induction fs as [|[k v] r IH]; cbn [on_first]; intros labels fs' H.
  - injection H as <-. split; [reflexivity|]. split; [discriminate|reflexivity].
  - destruct (existsb (String.eqb k) labels) eqn:X.
    + destruct (f v) as [v'| | |] eqn:F; cbn [bind] in H; try discriminate.
      destruct (on_first f _ r) as [r'| | |] eqn:T; cbn [bind] in H; try discriminate.
      injection H as <-. destruct (IH _ _ T) as [L [N K]].
      split; [cbn; f_equal; exact L|]. split.
      * intros k0 v0. rewrite !first_cons. destruct (String.eqb_spec k k0) as [->|D]; intros E Y.
        -- injection E as <-. eauto.
        -- apply N; [exact E|]. rewrite eqb_existsb_filter, Y. cbn.
           destruct (String.eqb_spec k k0); [contradiction|reflexivity].
      * intros k0 Y. rewrite !first_cons. destruct (String.eqb_spec k k0) as [->|D].
        -- congruence.
        -- apply K. rewrite eqb_existsb_filter, Y. reflexivity.
    + destruct (on_first f _ r) as [r'| | |] eqn:T; cbn [bind] in H; try discriminate.
      injection H as <-. destruct (IH _ _ T) as [L [N K]].
      split; [cbn; f_equal; exact L|]. split.
      * intros k0 v0. rewrite !first_cons. destruct (String.eqb_spec k k0) as [->|D]; intros E Y.
        -- congruence.
        -- apply N; assumption.
      * intros k0 Y. rewrite !first_cons. destruct (String.eqb_spec k k0) as [->|D].
        -- reflexivity.
        -- apply K; assumption.
Qed.

Lemma apply_labels e fs :
  map fst (flat_map (apply_field e) fs) =
  filter (fun k => negb (existsb (String.eqb k) openapi_only)) (map fst fs).
Proof.
  induction fs as [|[k v] r IH]; [reflexivity|].
  cbn [flat_map map fst filter]. rewrite map_app, IH. unfold apply_field, is_deleted.
  change deleted with openapi_only. destruct (existsb (String.eqb k) openapi_only); [reflexivity|].
  cbn [negb]. destruct (String.eqb k "type"); [destruct (e && negb (typeContainsNull v))|]; reflexivity.
Qed.

Lemma apply_other e fs k :
  existsb (String.eqb k) openapi_only = false -> String.eqb k "type" = false ->
  first k (flat_map (apply_field e) fs) = first k fs.
Proof.
  intros D T. induction fs as [|[k0 v] r IH]; [reflexivity|].
  cbn [flat_map]. rewrite first_app, first_cons. unfold apply_field, is_deleted.
  change deleted with openapi_only.
  destruct (existsb (String.eqb k0) openapi_only) eqn:D0.
  - destruct (String.eqb_spec k0 k) as [->|]; [congruence|exact IH].
  - destruct (String.eqb_spec k0 "type") as [->|N0].
    + rewrite String.eqb_sym in T.
      destruct (e && negb (typeContainsNull v)); rewrite first_cons, T; exact IH.
    + rewrite first_cons. destruct (String.eqb k0 k); [reflexivity|exact IH].
Qed.

Lemma apply_type e fs t :
  first "type" fs = Some t ->
  first "type" (flat_map (apply_field e) fs) =
  Some (if e && negb (typeContainsNull t) then NList [t; NLit (LStr "null")] else t).
Proof.
  induction fs as [|[k0 v] r IH]; [discriminate|].
  cbn [flat_map]. rewrite first_app, first_cons. unfold apply_field, is_deleted.
  change deleted with openapi_only.
  destruct (String.eqb_spec k0 "type") as [->|N0]; intro H.
  - injection H as ->. change (existsb (String.eqb "type") openapi_only) with false. cbn iota.
    destruct (e && negb (typeContainsNull t)); reflexivity.
  - destruct (existsb (String.eqb k0) openapi_only).
    + apply IH, H.
    + rewrite first_cons. destruct (String.eqb_spec k0 "type"); [contradiction|]. apply IH, H.
Qed.

(** *** Types *)
Lemma schema_type_lit fs :
  getSchemaType fs = option_map lit_text (literal_type (NStruct fs)).
Proof.
  unfold getSchemaType, literal_type. rewrite getField_first.
  destruct (first "type" fs) as [[l| | |]|]; reflexivity.
Qed.

(** Literals whose text is an accepted type name are strings, unless a number
    were spelt that way. *)
Definition sane_lit (l : lit) : Prop :=
  match l with LNum raw => scanned raw = None | _ => True end.

Lemma scanned_subschemas l labels :
  sane_lit l -> scanned (lit_text l) = Some labels ->
  labels = subschemas l /\ exists s, l = LStr s /\ s <> "null".
Proof.
  destruct l as [s| | | |raw]; cbn [lit_text sane_lit]; intros S H; try discriminate H.
  - destruct (String.eqb_spec s "") as [->|NE]; [discriminate H|].
    unfold scanned in H.
    destruct (String.eqb_spec s "object") as [->|NO].
    { injection H as <-. split; [reflexivity|]. exists "object". split; [reflexivity|discriminate]. }
    destruct (String.eqb_spec s "array") as [->|NA].
    { injection H as <-. split; [reflexivity|]. exists "array". split; [reflexivity|discriminate]. }
    destruct (existsb (String.eqb s) _) eqn:X; [|discriminate]. injection H as <-.
    cbn [existsb] in X.
    assert (Q : s = "integer" \/ s = "number" \/ s = "boolean" \/ s = "string").
    { destruct (String.eqb_spec s "integer"); [auto|]. destruct (String.eqb_spec s "number"); [auto|].
      destruct (String.eqb_spec s "boolean"); [auto|]. destruct (String.eqb_spec s "string"); [auto|].
      discriminate. }
    destruct Q as [-> | [-> | [-> | ->]]]; (split; [reflexivity|]; eexists; split; [reflexivity|discriminate]).
  - congruence.
Qed.

Lemma no_type_scanned t labels : scanned t = Some labels -> existsb (String.eqb "type") labels = false.
Proof.
  unfold scanned. destruct (String.eqb t "object"); [intro H; injection H as <-; reflexivity|].
  destruct (String.eqb t "array"); [intro H; injection H as <-; reflexivity|].
  destruct (existsb _ _); [intro H; injection H as <-; reflexivity|discriminate].
Qed.

(** Number literals are spelt as numbers. *)
Inductive good : node -> Prop :=
| g_lit l : sane_lit l -> good (NLit l)
| g_list es : Forall good es -> good (NList es)
| g_struct fs : Forall (fun f => good (snd f)) fs -> good (NStruct fs)
| g_file ds : Forall good ds -> good (NFile ds).

Lemma good_child n s c : good n -> child n s = Some c -> good c.
Proof.
  intros G H. destruct G as [l|es F|fs F|ds F]; destruct s; try discriminate; cbn in H.
  - apply nth_error_In in H. rewrite Forall_forall in F. auto.
  - apply first_in in H. rewrite Forall_forall in F. apply (F (k, c)), H.
  - apply nth_error_In in H. rewrite Forall_forall in F. auto.
Qed.

Lemma or_panic_ok {A} (x : outcome A) a : or_panic x = Ok a -> x = Ok a.
Proof. destruct x; cbn; congruence. Qed.

(** *** The conversion, by navigation *)
Definition outcome_at (r : role) (m : node) (out : option node) : Prop :=
  match r with
  | Dropped | TypeField => True (* fixed by [converted] one step up *)
  | Kept => out = Some m
  | Walked => exists m', out = Some m' /\ same_shape m m'
  | Converted o =>
      exists fs fs', m = NStruct fs /\ out = Some (NStruct fs') /\ converted o fs fs'
  end.

Lemma outcome_scan root n n' :
  scan root n = Ok n' -> good n ->
  match literal_type n with
  | None => same_shape n n' /\
            (forall s c, child n s = Some c -> exists c', child n' s = Some c' /\ scan root c = Ok c')
  | Some l =>
      exists fs fs', n = NStruct fs /\ n' = NStruct fs' /\ converted root fs fs' /\
      (forall k c, child n (Lab k) = Some c ->
         existsb (String.eqb k) openapi_only = false -> String.eqb k "type" = false ->
         if existsb (String.eqb k) (subschemas l)
         then exists c', child n' (Lab k) = Some c' /\ scan false c = Ok c'
         else child n' (Lab k) = Some c)
  end.
Proof.
  intros H G. destruct n as [l|es|fs|ds].
  - injection H as <-. split; [reflexivity|]. intros [] c; discriminate.
  - cbn [scan] in H. destruct (traverse (scan root) es) as [es'| | |] eqn:T; cbn [bind] in H; try discriminate.
    injection H as <-. destruct (traverse_nth _ _ _ T) as [L N]. split; [cbn; lia|].
    intros [k|i] c; [discriminate|]. apply N.
  - cbn [scan] in H. rewrite schema_type_lit in H.
    destruct (literal_type (NStruct fs)) as [l|] eqn:LT; cbn [option_map] in H.
    + destruct (scanned (lit_text l)) as [labels|] eqn:SC; [|discriminate].
      destruct (or_panic (on_first (scan false) labels fs)) as [fs1| | |] eqn:OP; cbn [bind] in H; try discriminate.
      apply or_panic_ok in OP. injection H as <-.
      assert (SL : sane_lit l).
      { unfold literal_type in LT. destruct (first "type" fs) as [[l0| | |]|] eqn:FT; try discriminate.
        injection LT as ->. assert (Gt : good (NLit l)) by (apply (good_child (NStruct fs) (Lab "type")); [exact G|exact FT]).
        inversion Gt; assumption. }
      destruct (scanned_subschemas _ _ SL SC) as [-> [s [-> NN]]].
      destruct (on_first_spec _ _ _ _ OP) as [L [N K]].
      assert (NT : existsb (String.eqb "type") (subschemas (LStr s)) = false).
      { exact (no_type_scanned _ _ SC). }
      exists fs. eexists. split; [reflexivity|]. split; [reflexivity|]. split.
      * split; [|split].
        -- rewrite map_app, apply_labels, L. destruct root; reflexivity.
        -- intros t FT. rewrite first_app.
           unfold literal_type in LT. rewrite FT in LT. destruct t as [l0| | |]; try discriminate. injection LT as ->.
           rewrite (apply_type _ _ (NLit (LStr s))) by (rewrite (K _ NT); exact FT).
           f_equal. unfold checkNull, nullable. rewrite getField_first. cbn [typeContainsNull].
           destruct (String.eqb_spec s "null") as [->|]; [contradiction|].
           rewrite Bool.andb_true_r. reflexivity.
        -- intros ->. eexists. reflexivity.
      * intros k c C D T. unfold process. cbn [child] in *. rewrite !first_app, (apply_other _ _ _ D T).
        destruct (existsb (String.eqb k) (subschemas (LStr s))) eqn:X.
        -- destruct (N _ _ C X) as [c' [E S]]. exists c'. rewrite E. auto.
        -- rewrite (K _ X), C. reflexivity.
    + destruct (on_all (scan root) fs) as [fs'| | |] eqn:T; cbn [bind] in H; try discriminate.
      injection H as <-. destruct (on_all_spec _ _ _ T) as [L N]. split; [cbn; congruence|].
      intros [k|i] c; [|discriminate]. apply N.
  - cbn [scan] in H. destruct (traverse (scan root) ds) as [ds'| | |] eqn:T; cbn [bind] in H; try discriminate.
    injection H as <-. destruct (traverse_nth _ _ _ T) as [L N]. split; [cbn; lia|].
    intros [k|i] c; [discriminate|]. apply N.
Qed.

Theorem conversion root n n' p m :
  scan root n = Ok n' -> good n -> nav n p = Some m ->
  outcome_at (role_at root n p) m (nav n' p).
Proof.
  revert root n n'. induction p as [|s r IH]; intros root n n' H G NV; cbn [nav role_at] in *.
  - injection NV as <-. pose proof (outcome_scan _ _ _ H G) as O.
    destruct (literal_type n); cbn [outcome_at].
    + destruct O as [fs [fs' [-> [-> [C _]]]]]. eauto.
    + destruct O as [S _]. eauto.
  - destruct (child n s) as [c|] eqn:C; [|discriminate].
    pose proof (outcome_scan _ _ _ H G) as O. pose proof (good_child _ _ _ G C) as Gc.
    destruct (literal_type n) as [l|].
    + destruct O as [fs [fs' [-> [-> [_ O]]]]]. destruct s as [k|i]; [|discriminate].
      destruct (existsb (String.eqb k) openapi_only) eqn:D; [exact I|].
      destruct (String.eqb k "type") eqn:T; [exact I|].
      specialize (O _ _ C D T). destruct (existsb (String.eqb k) (subschemas l)).
      * destruct O as [c' [E S]]. rewrite E. apply IH; assumption.
      * rewrite O. exact NV.
    + destruct O as [_ O]. destruct (O _ _ C) as [c' [E S]]. rewrite E. apply IH; assumption.
Qed.

(** *** Removed keywords, and $schema *)
Lemma first_labels k fs : first k fs <> None <-> In k (map fst fs).
Proof.
  induction fs as [|[a x] r IH]; [cbn; tauto|]. rewrite first_cons. cbn [map fst In].
  destruct (String.eqb_spec a k) as [E|N]; [split; [auto|discriminate]|]. rewrite IH. split; [auto|].
  intros [E|H]; [contradiction|exact H].
Qed.

Lemma dropped_gone root n n' p :
  scan root n = Ok n' -> good n -> role_at root n p = Dropped -> nav n' p = None.
Proof.
  revert root n n'. induction p as [|s r IH]; intros root n n' H G R; cbn [nav role_at] in *.
  - destruct (literal_type n); discriminate.
  - pose proof (outcome_scan _ _ _ H G) as O.
    destruct (literal_type n) as [l|].
    + destruct O as [fs [fs' [-> [-> [C O]]]]]. destruct s as [k|i]; [|discriminate].
      destruct (existsb (String.eqb k) openapi_only) eqn:D.
      * destruct C as [L _]. cbn [child]. destruct (first k fs') eqn:F; [|reflexivity]. exfalso.
        assert (I : In k (map fst fs')) by (apply first_labels; congruence).
        rewrite L in I. apply in_app_or in I. destruct I as [I|I].
        -- apply filter_In in I. destruct I as [_ I]. rewrite D in I. discriminate.
        -- destruct root; [|contradiction]. destruct I as [<-|[]]. discriminate D.
      * destruct (String.eqb k "type") eqn:T; [discriminate|].
        destruct (existsb (String.eqb k) (subschemas l)) eqn:X; [|discriminate].
        destruct (child (NStruct fs) (Lab k)) as [c|] eqn:C'; [|discriminate].
        specialize (O _ _ C' D T). rewrite X in O. destruct O as [c' [E S]]. rewrite E.
        apply (IH false c c'); [exact S|exact (good_child _ _ _ G C')|exact R].
    + destruct (child n s) as [c|] eqn:C'; [|discriminate]. destruct O as [_ O].
      destruct (O _ _ C') as [c' [E S]]. rewrite E.
      apply (IH root c c'); [exact S|exact (good_child _ _ _ G C')|exact R].
Qed.

Lemma type_field_below n p root :
  role_at root n p = TypeField -> forall fs, nav n p <> Some (NStruct fs).
Proof.
  revert root n. induction p as [|s r IH]; intros root n R fs; cbn [nav role_at] in *.
  - destruct (literal_type n); discriminate.
  - destruct (literal_type n) as [l|] eqn:LT.
    + destruct s as [k|i]; [|discriminate].
      destruct (existsb (String.eqb k) openapi_only); [discriminate|].
      destruct (String.eqb k "type") eqn:T.
      * apply String.eqb_eq in T. subst k. destruct n as [| |fs0|]; try discriminate.
        cbn [child]. unfold literal_type in LT. destruct (first "type" fs0) as [[l0| | |]|]; try discriminate.
        destruct r as [|[] r]; cbn; congruence.
      * destruct (existsb (String.eqb k) (subschemas l)); [|discriminate].
        destruct (child n (Lab k)); [|discriminate]. apply (IH false), R.
    + destruct (child n s); [|discriminate]. apply (IH root), R.
Qed.

(** The document uses no "$schema" of its own. *)
Definition no_own_schema (n : node) : Prop :=
  forall p fs, nav n p = Some (NStruct fs) -> first "$schema" fs = None.

Theorem schema_field_at doc out p fs :
  oapiToJSchema doc = Ok out -> good doc -> no_own_schema doc -> nav doc p = Some (NStruct fs) ->
  (match nav out p with
   | Some (NStruct fs') => first "$schema" fs' <> None
   | _ => False
   end <-> role_at true doc p = Converted true).
Proof.
  intros H G NO NV. pose proof (conversion true doc out p _ H G NV) as C.
  pose proof (NO _ _ NV) as NS.
  destruct (role_at true doc p) as [|o| | |] eqn:R; cbn [outcome_at] in C.
  - destruct C as [m' [-> S]]. destruct m' as [| |fs'|]; try contradiction. cbn [same_shape] in S.
    split; [|discriminate]. intro F. exfalso. apply first_labels in F. rewrite <- S in F.
    apply first_labels in F. contradiction.
  - destruct C as [fs0 [fs' [E [-> [L _]]]]]. injection E as <-. rewrite first_labels, L, in_app_iff, filter_In.
    split.
    + intros [[I _]|I].
      * apply first_labels in I. contradiction.
      * destruct o; [reflexivity|contradiction].
    + intro E. injection E as ->. right. left. reflexivity.
  - rewrite C. split; [contradiction|discriminate].
  - exfalso. exact (type_field_below _ _ _ R _ NV).
  - rewrite (dropped_gone _ _ _ _ H G R). split; [contradiction|discriminate].
Qed.
