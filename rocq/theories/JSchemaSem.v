(** The data accepted by OpenAPI 3.0 and by JSON Schema, and proof that the
    conversion keeps it. Specification only: nothing here is code of /repo. *)
From Verif Require Import Prelude JSchema JSchemaProofs.
Local Open Scope string_scope.
Local Open Scope list_scope.

Inductive json :=
| JNull | JBool (b : bool) | JInt (z : Z) | JFrac (s : string) | JStr (s : string)
| JArr (l : list json) | JObj (l : list (string * json)).

Definition is_null (d : json) : bool := match d with JNull => true | _ => false end.

Definition has_type (t : string) (d : json) : bool :=
  match d with
  | JNull => String.eqb t "null"
  | JBool _ => String.eqb t "boolean"
  | JInt _ => String.eqb t "integer" || String.eqb t "number"
  | JFrac _ => String.eqb t "number"
  | JStr _ => String.eqb t "string"
  | JArr _ => String.eqb t "array"
  | JObj _ => String.eqb t "object"
  end.

Definition lit_has_type (v : node) (d : json) : bool :=
  match v with NLit (LStr t) => has_type t d | _ => false end.

Fixpoint assoc (k : string) (l : list (string * json)) : option json :=
  match l with
  | [] => None
  | (k0, v) :: r => if String.eqb k0 k then Some v else assoc k r
  end.

Definition prop_names (fs : list (string * node)) : list string :=
  match first "properties" fs with Some (NStruct ps) => map fst ps | _ => [] end.

Definition mem (k : string) (l : list string) : bool := existsb (String.eqb k) l.

Section Accepts.
(** The constraint keywords the conversion has no business with: "minimum",
    "enum", "required", "$ref" and so on; their meaning is a parameter. *)
Variable other : string -> node -> json -> bool.

(** [oas]: OpenAPI 3.0, where "nullable" beside a type also admits null;
    otherwise JSON Schema, where it is an unknown, ignored keyword. *)
Fixpoint accepts (oas : bool) (n : node) (d : json) {struct n} : bool :=
  match n with
  | NStruct fs =>
      forallb (fun f : string * node =>
        let '(k, v) := f in
        if String.eqb k "type" then
          match v with
          | NLit _ => lit_has_type v d || (oas && nullable fs && is_null d)
          | NList ts => existsb (fun t => lit_has_type t d) ts
          | _ => false
          end
        else if String.eqb k "properties" then
          match v, d with
          | NStruct ps, JObj kvs =>
              forallb (fun p : string * node =>
                let '(pk, ps) := p in
                match assoc pk kvs with Some x => accepts oas ps x | None => true end) ps
          | _, _ => true
          end
        else if String.eqb k "additionalProperties" then
          match v, d with
          | NLit LFalse, JObj kvs => forallb (fun kx => mem (fst kx) (prop_names fs)) kvs
          | NStruct _, JObj kvs =>
              forallb (fun kx => mem (fst kx) (prop_names fs) || accepts oas v (snd kx)) kvs
          | _, _ => true
          end
        else if String.eqb k "items" then
          match v, d with
          | NStruct _, JArr xs => forallb (fun x => accepts oas v x) xs
          | _, _ => true
          end
        else if String.eqb k "allOf" then
          match v with NList ss => forallb (fun s => accepts oas s d) ss | _ => true end
        else if String.eqb k "anyOf" then
          match v with NList ss => existsb (fun s => accepts oas s d) ss | _ => true end
        else if String.eqb k "oneOf" then
          match v with
          | NList ss => Nat.eqb (length (filter (fun b => b) (map (fun s => accepts oas s d) ss))) 1
          | _ => true end
        else if String.eqb k "not" then negb (accepts oas v d)
        else if mem k ("$schema" :: openapi_only) then true
        else other k v d) fs
  | _ => true
  end.
End Accepts.

Definition logic_ops : list string := ["allOf"; "anyOf"; "oneOf"; "not"].
Definition keywords : list string :=
  ["properties"; "additionalProperties"; "items"] ++ logic_ops.

(** A part of the document that holds no struct with a literal type. *)
Inductive plain : node -> Prop :=
| p_lit l : plain (NLit l)
| p_list es : Forall plain es -> plain (NList es)
| p_struct fs : literal_type (NStruct fs) = None -> Forall (fun f => plain (snd f)) fs -> plain (NStruct fs).

(** Schemas of the shape the converter is written for. A typed schema object
    has sub-schemas only where its type has them, and no combinator next to the
    type. An untyped one carries plain data under all other keywords. *)
Inductive schema : node -> Prop :=
| s_typed fs l :
    NoDup (map fst fs) -> literal_type (NStruct fs) = Some l ->
    (forall k v, In (k, v) fs -> mem k keywords = true -> mem k (subschemas l) = true) ->
    (forall k v, In (k, v) fs -> mem k (subschemas l) = true -> under k v) ->
    schema (NStruct fs)
| s_untyped fs :
    NoDup (map fst fs) -> literal_type (NStruct fs) = None ->
    (forall k v, In (k, v) fs -> mem k keywords = true -> under k v) ->
    (forall k v, In (k, v) fs -> mem k keywords = false -> plain v) ->
    schema (NStruct fs)
with under : string -> node -> Prop :=
| u_props ps : (forall k v, In (k, v) ps -> schema v) -> under "properties" (NStruct ps)
| u_add_bool b : under "additionalProperties" (NLit b)
| u_add s : schema s -> under "additionalProperties" s
| u_items s : schema s -> under "items" s
| u_list k ss : mem k ["allOf"; "anyOf"; "oneOf"] = true -> (forall s, In s ss -> schema s) -> under k (NList ss)
| u_not s : schema s -> under "not" s.

(** *** Proof *)
Fixpoint nsize (n : node) : nat :=
  match n with
  | NLit _ => 1
  | NList es => S (list_sum (map nsize es))
  | NStruct fs => S (list_sum (map (fun f => S (nsize (snd f))) fs))
  | NFile ds => S (list_sum (map nsize ds))
  end.

Lemma list_sum_in {A} (f : A -> nat) l x : In x l -> f x <= list_sum (map f l).
Proof.
  induction l as [|y r IH]; [contradiction|]. intros [->|H]; cbn [map list_sum fold_right].
  - unfold list_sum; lia.
  - specialize (IH H). unfold list_sum in *; lia.
Qed.

Lemma nsize_field fs k v : In (k, v) fs -> nsize v < nsize (NStruct fs).
Proof. intro H. apply (list_sum_in (fun f => S (nsize (snd f)))) in H. cbn [snd nsize] in *. unfold list_sum in *; lia. Qed.
Lemma nsize_elt es v : In v es -> nsize v < nsize (NList es).
Proof. intro H. apply (list_sum_in nsize) in H. cbn [nsize] in *. unfold list_sum in *; lia. Qed.

Lemma traverse_id f es :
  (forall e, In e es -> f e = Ok e) -> traverse f es = Ok (es : list node).
Proof.
  induction es as [|e r IH]; intro H; [reflexivity|]. cbn [traverse].
  rewrite (H e) by (left; reflexivity). cbn [bind]. rewrite IH by (intros; apply H; right; assumption).
  reflexivity.
Qed.
Lemma on_all_id f fs :
  (forall k v, In (k, v) fs -> f v = Ok v) -> on_all f fs = Ok fs.
Proof.
  induction fs as [|[k v] r IH]; intro H; [reflexivity|]. cbn [on_all].
  rewrite (H k v) by (left; reflexivity). cbn [bind]. rewrite IH by (intros; apply (H k0); right; assumption).
  reflexivity.
Qed.

Lemma scan_plain root n : plain n -> scan root n = Ok n.
Proof.
  remember (nsize n) as z eqn:Z. revert n Z. induction z as [z IH] using (well_founded_induction Wf_nat.lt_wf).
  intros n Z P. destruct P as [l|es F|fs T F]; [reflexivity| |].
  - cbn [scan]. rewrite traverse_id; [reflexivity|]. intros e I.
    rewrite Forall_forall in F. apply (IH (nsize e)); [subst; apply nsize_elt, I|reflexivity|auto].
  - cbn [scan]. rewrite schema_type_lit, T. cbn [option_map]. rewrite on_all_id; [reflexivity|].
    intros k v I. rewrite Forall_forall in F.
    apply (IH (nsize v)); [subst; apply (nsize_field _ _ _ I)|reflexivity|exact (F _ I)].
Qed.

(** The contribution of one keyword. *)
Definition fld (acc : node -> json -> bool) (other : string -> node -> json -> bool)
    (null : bool) (names : list string) (d : json) (f : string * node) : bool :=
  let '(k, v) := f in
  if String.eqb k "type" then
    match v with
    | NLit _ => lit_has_type v d || (null && is_null d)
    | NList ts => existsb (fun t => lit_has_type t d) ts
    | _ => false
    end
  else if String.eqb k "properties" then
    match v, d with
    | NStruct ps, JObj kvs =>
        forallb (fun p : string * node =>
          let '(pk, ps) := p in
          match assoc pk kvs with Some x => acc ps x | None => true end) ps
    | _, _ => true
    end
  else if String.eqb k "additionalProperties" then
    match v, d with
    | NLit LFalse, JObj kvs => forallb (fun kx => mem (fst kx) names) kvs
    | NStruct _, JObj kvs => forallb (fun kx => mem (fst kx) names || acc v (snd kx)) kvs
    | _, _ => true
    end
  else if String.eqb k "items" then
    match v, d with
    | NStruct _, JArr xs => forallb (fun x => acc v x) xs
    | _, _ => true
    end
  else if String.eqb k "allOf" then
    match v with NList ss => forallb (fun s => acc s d) ss | _ => true end
  else if String.eqb k "anyOf" then
    match v with NList ss => existsb (fun s => acc s d) ss | _ => true end
  else if String.eqb k "oneOf" then
    match v with
    | NList ss => Nat.eqb (length (filter (fun b => b) (map (fun s => acc s d) ss))) 1
    | _ => true end
  else if String.eqb k "not" then negb (acc v d)
  else if mem k ("$schema" :: openapi_only) then true
  else other k v d.

Lemma accepts_struct other oas fs d :
  accepts other oas (NStruct fs) d =
  forallb (fld (accepts other oas) other (oas && nullable fs) (prop_names fs) d) fs.
Proof. reflexivity. Qed.

Lemma on_all_F2 f fs fs' :
  on_all f fs = Ok fs' ->
  Forall2 (fun a b => fst a = fst b /\ f (snd a) = Ok (snd b)) fs fs'.
Proof.
  revert fs'. induction fs as [|[k v] r IH]; cbn [on_all]; intros fs' H.
  - injection H as <-. constructor.
  - destruct (f v) as [v'| | |] eqn:F; cbn [bind] in H; try discriminate.
    destruct (on_all f r) as [r'| | |] eqn:T; cbn [bind] in H; try discriminate.
    injection H as <-. constructor; [split; [reflexivity|exact F]|auto].
Qed.

Lemma traverse_F2 {A B} (f : A -> outcome B) l l' :
  traverse f l = Ok l' -> Forall2 (fun a b => f a = Ok b) l l'.
Proof.
  revert l'. induction l as [|x r IH]; cbn [traverse]; intros l' H.
  - injection H as <-. constructor.
  - destruct (f x) as [y| | |] eqn:F; cbn [bind] in H; try discriminate.
    destruct (traverse f r) as [ys| | |] eqn:T; cbn [bind] in H; try discriminate.
    injection H as <-. constructor; auto.
Qed.

Lemma mem_filter k k0 labels : k <> k0 ->
  mem k (filter (fun l => negb (String.eqb k0 l)) labels) = mem k labels.
Proof.
  intro D. unfold mem. rewrite eqb_existsb_filter.
  destruct (String.eqb_spec k0 k); [congruence|]. apply Bool.andb_true_r.
Qed.

Lemma on_first_F2 f labels fs fs' :
  NoDup (map fst fs) -> on_first f labels fs = Ok fs' ->
  Forall2 (fun a b => fst a = fst b /\
             if mem (fst a) labels then f (snd a) = Ok (snd b) else snd b = snd a) fs fs'.
Proof.
  revert labels fs'. induction fs as [|[k v] r IH]; cbn [on_first map fst]; intros labels fs' N H.
  - injection H as <-. constructor.
  - inversion N as [|? ? NI ND]; subst.
    destruct (existsb (String.eqb k) labels) eqn:X.
    + destruct (f v) as [v'| | |] eqn:F; cbn [bind] in H; try discriminate.
      destruct (on_first f _ r) as [r'| | |] eqn:T; cbn [bind] in H; try discriminate.
      injection H as <-. constructor.
      * cbn [fst snd]. unfold mem. rewrite X. auto.
      * specialize (IH _ _ ND T). clear -IH NI.
        induction IH as [|[a x] [b y] l l' [E Q] _ IH']; [constructor|].
        cbn [map fst snd] in *. subst b. constructor.
        -- cbn [fst snd]. split; [reflexivity|]. rewrite mem_filter in Q; [exact Q|].
           intros ->. apply NI. left; reflexivity.
        -- apply IH'. intro I. apply NI. right; exact I.
    + destruct (on_first f _ r) as [r'| | |] eqn:T; cbn [bind] in H; try discriminate.
      injection H as <-. constructor; [|apply IH; assumption].
      cbn [fst snd]. unfold mem. rewrite X. auto.
Qed.

Lemma schema_struct n : schema n -> exists fs, n = NStruct fs.
Proof. intros []; eauto. Qed.

Lemma scan_struct root fs n' : scan root (NStruct fs) = Ok n' -> exists fs', n' = NStruct fs'.
Proof.
  cbn [scan]. destruct (getSchemaType fs).
  - destruct (scanned _); [|discriminate]. destruct (or_panic _); cbn [bind]; try discriminate.
    intro H. injection H as <-. unfold process. eauto.
  - destruct (on_all _ _); cbn [bind]; try discriminate. intro H. injection H as <-. eauto.
Qed.

Lemma props_untyped ps : (forall k v, In (k, v) ps -> schema v) -> literal_type (NStruct ps) = None.
Proof.
  intro H. unfold literal_type. destruct (first "type" ps) as [v|] eqn:F; [|reflexivity].
  apply first_in in F. destruct (schema_struct _ (H _ _ F)) as [fs ->]. reflexivity.
Qed.

Lemma scan_props root ps n' :
  (forall k v, In (k, v) ps -> schema v) -> scan root (NStruct ps) = Ok n' ->
  exists ps', n' = NStruct ps' /\
    Forall2 (fun a b => fst a = fst b /\ scan root (snd a) = Ok (snd b)) ps ps'.
Proof.
  intros S H. cbn [scan] in H. rewrite schema_type_lit, (props_untyped _ S) in H. cbn [option_map] in H.
  destruct (on_all (scan root) ps) as [ps'| | |] eqn:T; cbn [bind] in H; try discriminate.
  injection H as <-. exists ps'. split; [reflexivity|]. apply on_all_F2, T.
Qed.

Lemma forallb_F2 {A B} (R : A -> B -> Prop) (f : A -> bool) (g : B -> bool) l l' :
  Forall2 R l l' -> (forall a b, In a l -> R a b -> f a = g b) -> forallb f l = forallb g l'.
Proof.
  induction 1 as [|a b l l' Q _ IH]; intro H; [reflexivity|]. cbn [forallb].
  rewrite (H a b) by (auto; left; reflexivity). f_equal. apply IH. intros; apply H; [right|]; assumption.
Qed.
Lemma existsb_F2 {A B} (R : A -> B -> Prop) (f : A -> bool) (g : B -> bool) l l' :
  Forall2 R l l' -> (forall a b, In a l -> R a b -> f a = g b) -> existsb f l = existsb g l'.
Proof.
  induction 1 as [|a b l l' Q _ IH]; intro H; [reflexivity|]. cbn [existsb].
  rewrite (H a b) by (auto; left; reflexivity). f_equal. apply IH. intros; apply H; [right|]; assumption.
Qed.
Lemma map_F2 {A B C} (R : A -> B -> Prop) (f : A -> C) (g : B -> C) l l' :
  Forall2 R l l' -> (forall a b, In a l -> R a b -> f a = g b) -> map f l = map g l'.
Proof.
  induction 1 as [|a b l l' Q _ IH]; intro H; [reflexivity|]. cbn [map].
  rewrite (H a b) by (auto; left; reflexivity). f_equal. apply IH. intros; apply H; [right|]; assumption.
Qed.

Lemma forallb_ext' {A} (f g : A -> bool) l : (forall x, f x = g x) -> forallb f l = forallb g l.
Proof. intro H. induction l; cbn [forallb]; congruence. Qed.

Lemma good_field fs k v : good (NStruct fs) -> In (k, v) fs -> good v.
Proof. intros G I. inversion G as [| |? F|]; subst. rewrite Forall_forall in F. exact (F _ I). Qed.
Lemma good_elt es v : good (NList es) -> In v es -> good v.
Proof. intros G I. inversion G as [|? F| |]; subst. rewrite Forall_forall in F. exact (F _ I). Qed.

Section Under.
Variable other : string -> node -> json -> bool.

(** Keywords that hold sub-schemas. *)
Lemma under_fld k v v' root null null' names d :
  (forall n n', nsize n <= nsize v -> good n -> schema n -> scan root n = Ok n' ->
     forall d, accepts other true n d = accepts other false n' d) ->
  good v -> under k v -> scan root v = Ok v' ->
  fld (accepts other true) other null names d (k, v) =
  fld (accepts other false) other null' names d (k, v').
Proof.
  intros IH G U S. destruct U as [ps P|b|s P|s P|k ss K P|s P].
  - destruct (scan_props _ _ _ P S) as [ps' [-> F]].
    cbv beta iota delta [fld]. cbn [String.eqb Ascii.eqb Bool.eqb].
    destruct d; try reflexivity.
    apply (forallb_F2 _ _ _ _ _ F). intros [a x] [b y] I [E Q]. cbn [fst snd] in *. subst b.
    destruct (assoc a l); [|reflexivity].
    apply IH; [|exact (good_field _ _ _ G I)|exact (P _ _ I)|exact Q]. pose proof (nsize_field _ _ _ I); lia.
  - injection S as <-. unfold fld. cbn [String.eqb Ascii.eqb Bool.eqb]. destruct b; reflexivity.
  - destruct (schema_struct _ P) as [fs ->]. destruct (scan_struct _ _ _ S) as [fs' ->].
    cbv beta iota delta [fld]. cbn [String.eqb Ascii.eqb Bool.eqb].
    destruct d; try reflexivity. apply forallb_ext'. intros kx. f_equal. apply IH; auto.
  - destruct (schema_struct _ P) as [fs ->]. destruct (scan_struct _ _ _ S) as [fs' ->].
    cbv beta iota delta [fld]. cbn [String.eqb Ascii.eqb Bool.eqb].
    destruct d; try reflexivity. apply forallb_ext'. intros x. apply IH; auto.
  - cbn [scan] in S. destruct (traverse (scan root) ss) as [ss'| | |] eqn:T; cbn [bind] in S; try discriminate.
    injection S as <-. apply traverse_F2 in T.
    assert (Q : forall a b, In a ss -> scan root a = Ok b -> accepts other true a d = accepts other false b d).
    { intros a b I E. apply IH; [|exact (good_elt _ _ G I)|exact (P _ I)|exact E]. pose proof (nsize_elt _ _ I); lia. }
    assert (KK : k = "allOf" \/ k = "anyOf" \/ k = "oneOf").
    { unfold mem in K. apply existsb_exists in K. destruct K as [x [I E]]. apply String.eqb_eq in E.
      subst x. cbn in I. intuition congruence. }
    destruct KK as [E|[E|E]]; subst k;
    cbv beta iota delta [fld]; cbn [String.eqb Ascii.eqb Bool.eqb].
    + apply (forallb_F2 _ _ _ _ _ T), Q.
    + apply (existsb_F2 _ _ _ _ _ T), Q.
    + rewrite (map_F2 _ _ _ _ _ T Q). reflexivity.
  - cbv beta iota delta [fld]. cbn [String.eqb Ascii.eqb Bool.eqb]. f_equal. apply IH; auto.
Qed.
End Under.

Lemma F2_labels {R : node -> node -> Prop} fs fs' :
  Forall2 (fun a b : string * node => fst a = fst b /\ R (snd a) (snd b)) fs fs' -> map fst fs' = map fst fs.
Proof. induction 1 as [|a b l l' [E _] _ IH]; [reflexivity|]. cbn [map]. congruence. Qed.

Lemma F2_first {R : string -> node -> node -> Prop} fs fs' k :
  Forall2 (fun a b : string * node => fst a = fst b /\ R (fst a) (snd a) (snd b)) fs fs' ->
  match first k fs, first k fs' with
  | Some v, Some v' => In (k, v) fs /\ R k v v'
  | None, None => True
  | _, _ => False
  end.
Proof.
  induction 1 as [|[a x] [b y] l l' [E Q] _ IH]; [exact I|]. cbn [fst snd] in *. subst b.
  rewrite !first_cons. destruct (String.eqb_spec a k) as [E|].
  - subst. split; [left; reflexivity|exact Q].
  - destruct (first k l), (first k l'); try exact IH. destruct IH; split; [right|]; assumption.
Qed.

Lemma forallb_flat_map {A B} (p : B -> bool) (f : A -> list B) l :
  forallb p (flat_map f l) = forallb (fun x => forallb p (f x)) l.
Proof. induction l as [|x r IH]; [reflexivity|]. cbn [flat_map forallb]. rewrite forallb_app, IH. reflexivity. Qed.

Lemma nodup_first fs k v : NoDup (map fst fs) -> In (k, v) fs -> first k fs = Some v.
Proof.
  induction fs as [|[a x] r IH]; [contradiction|]. cbn [map fst]. intros N [E|I]; rewrite first_cons.
  - injection E as -> ->. rewrite String.eqb_refl. reflexivity.
  - inversion N as [|? ? NI ND]; subst. destruct (String.eqb_spec a k) as [E|]; [|auto].
    subst. exfalso. apply NI. apply (in_map fst) in I. exact I.
Qed.

Section Main.
Variable other : string -> node -> json -> bool.

Lemma mem_in k l : mem k l = true <-> In k l.
Proof.
  unfold mem. rewrite existsb_exists. split.
  - intros [x [I E]]. apply String.eqb_eq in E. subst. exact I.
  - intro I. exists k. split; [exact I|apply String.eqb_refl].
Qed.

Lemma fld_other_kw acc acc' null null' names d k v :
  mem k keywords = false -> String.eqb k "type" = false ->
  fld acc other null names d (k, v) = fld acc' other null' names d (k, v).
Proof.
  intros K T. unfold fld. rewrite T. unfold mem, keywords, logic_ops in K. cbn [app existsb] in K.
  repeat (apply Bool.orb_false_iff in K; let E := fresh in destruct K as [E K]; rewrite E).
  reflexivity.
Qed.

Lemma fld_deleted acc null names d k v :
  mem k openapi_only = true -> fld acc other null names d (k, v) = true.
Proof.
  intro M. apply mem_in in M. cbn in M. unfold fld.
  repeat (destruct M as [<-|M]; [reflexivity|]). contradiction.
Qed.

Lemma prop_names_same root (R : string -> node -> node -> Prop) fs fs' :
  (forall v, In ("properties", v) fs -> under "properties" v) ->
  (forall v v', R "properties" v v' -> scan root v = Ok v') ->
  Forall2 (fun a b => fst a = fst b /\ R (fst a) (snd a) (snd b)) fs fs' ->
  prop_names fs' = prop_names fs.
Proof.
  intros U W F. unfold prop_names.
  pose proof (F2_first _ _ "properties" F) as Q.
  destruct (first "properties" fs) as [v|], (first "properties" fs') as [v'|]; try contradiction; [|reflexivity].
  destruct Q as [I Q]. apply W in Q.
  specialize (U _ I). inversion U as [ps P| | | |k ss K|]; subst; [|discriminate].
  destruct (scan_props _ _ _ P Q) as [ps' [-> G]].
  exact (F2_labels (R := fun a b => scan root a = Ok b) _ _ G).
Qed.

Theorem same_data root n n' d :
  schema n -> good n -> scan root n = Ok n' -> accepts other true n d = accepts other false n' d.
Proof.
  remember (nsize n) as z eqn:Z. revert root n n' d Z.
  induction z as [z IH] using (well_founded_induction Wf_nat.lt_wf).
  intros root n n' d Z Sc G H. destruct Sc as [fs l ND LT KW UN|fs ND LT UN PL].
  - (* typed *)
    cbn [scan] in H. rewrite schema_type_lit, LT in H. cbn [option_map] in H.
    destruct (scanned (lit_text l)) as [labels|] eqn:SC; [|discriminate].
    destruct (or_panic (on_first (scan false) labels fs)) as [fs1| | |] eqn:OP; cbn [bind] in H; try discriminate.
    apply or_panic_ok in OP. injection H as <-.
    assert (FT : first "type" fs = Some (NLit l)).
    { unfold literal_type in LT. destruct (first "type" fs) as [[l0| | |]|]; try discriminate. congruence. }
    assert (SL : sane_lit l).
    { assert (Gt : good (NLit l)) by (apply (good_child (NStruct fs) (Lab "type")); [exact G|exact FT]).
      inversion Gt; assumption. }
    destruct (scanned_subschemas _ _ SL SC) as [-> [s [-> NN]]].
    pose proof (no_type_scanned _ _ SC) as NT.
    pose proof (on_first_F2 _ _ _ _ ND OP) as F.
    assert (PN : prop_names fs1 = prop_names fs).
    { destruct (mem "properties" (subschemas (LStr s))) eqn:MP.
      - apply (prop_names_same false (fun k v v' => if mem k (subschemas (LStr s)) then scan false v = Ok v' else v' = v));
          [| |exact F].
        + intros v I. apply (UN _ _ I MP).
        + intros v v'. rewrite MP. auto.
      - unfold prop_names.
        pose proof (F2_first (R := fun k v v' => if mem k (subschemas (LStr s)) then scan false v = Ok v' else v' = v) _ _ "properties" F) as Q.
        cbv beta in Q. rewrite MP in Q.
        destruct (first "properties" fs) as [v|], (first "properties" fs1) as [v'|]; try contradiction; [|reflexivity].
        destruct Q as [_ ->]. reflexivity. }
    unfold process. rewrite !accepts_struct. cbn [andb].
    assert (PN' : prop_names (flat_map (apply_field (checkNull fs)) fs1 ++
       (if root then [("$schema", NLit (LStr schemaURL))] else [])) = prop_names fs).
    { rewrite <- PN. unfold prop_names. rewrite first_app, apply_other by reflexivity.
      destruct (first "properties" fs1); [reflexivity|]. destruct root; reflexivity. }
    rewrite PN'. rewrite forallb_app.
    assert (TL : forall acc nl nm, forallb (fld acc other nl nm d) (if root then [("$schema", NLit (LStr schemaURL))] else []) = true)
      by (intros; destruct root; reflexivity).
    rewrite TL, Bool.andb_true_r. rewrite forallb_flat_map.
    apply (forallb_F2 _ _ _ _ _ F). intros [a x] [b y] I [E Q]. cbn [fst snd] in *. subst b.
    unfold apply_field, is_deleted. change deleted with openapi_only.
    destruct (existsb (String.eqb a) openapi_only) eqn:D.
    { cbn [forallb]. apply fld_deleted. exact D. }
    destruct (String.eqb a "type") eqn:T.
    + apply String.eqb_eq in T. subst a. unfold mem in Q. rewrite NT in Q. subst y.
      assert (x = NLit (LStr s)).
      { pose proof (nodup_first _ _ _ ND I). congruence. }
      subst x. cbn [typeContainsNull]. destruct (String.eqb_spec s "null"); [contradiction|].
      rewrite Bool.andb_true_r. unfold fld. cbn [String.eqb Ascii.eqb Bool.eqb].
      replace (checkNull fs) with (nullable fs) by (unfold checkNull, nullable; rewrite getField_first; reflexivity).
      destruct (nullable fs); cbn [forallb]; rewrite Bool.andb_true_r.
      * cbn [existsb lit_has_type andb String.eqb Ascii.eqb Bool.eqb]. destruct d; reflexivity.
      * reflexivity.
    + cbn [forallb]. rewrite Bool.andb_true_r.
      destruct (mem a (subschemas (LStr s))) eqn:M.
      * apply (under_fld other a x y false); [|exact (good_field _ _ _ G I)|exact (UN _ _ I M)|exact Q].
        intros n n' LE Gn Sn En d0. apply (IH (nsize n)) with (root := false); auto.
        pose proof (nsize_field _ _ _ I). lia.
      * subst y. destruct (mem a keywords) eqn:MK; [rewrite (KW _ _ I MK) in M; discriminate|].
        apply fld_other_kw; assumption.
  - (* untyped *)
    cbn [scan] in H. rewrite schema_type_lit, LT in H. cbn [option_map] in H.
    destruct (on_all (scan root) fs) as [fs'| | |] eqn:T; cbn [bind] in H; try discriminate.
    injection H as <-. apply on_all_F2 in T. rewrite !accepts_struct. cbn [andb].
    assert (PN : prop_names fs' = prop_names fs).
    { apply (prop_names_same root (fun _ v v' => scan root v = Ok v')); [|auto|exact T].
      intros v I. apply (UN _ _ I). reflexivity. }
    rewrite PN. apply (forallb_F2 _ _ _ _ _ T). intros [a x] [b y] I [E Q]. cbn [fst snd] in *. subst b.
    destruct (mem a keywords) eqn:M.
    + apply (under_fld other a x y root); [|exact (good_field _ _ _ G I)|exact (UN _ _ I M)|exact Q].
      intros n n' LE Gn Sn En d0. apply (IH (nsize n)) with (root := root); auto.
      pose proof (nsize_field _ _ _ I). lia.
    + rewrite (scan_plain root x (PL _ _ I M)) in Q. injection Q as <-.
      destruct (String.eqb a "type") eqn:TY; [|apply fld_other_kw; assumption].
      apply String.eqb_eq in TY. subst a. unfold fld. cbn [String.eqb Ascii.eqb Bool.eqb].
      destruct x; try reflexivity. pose proof (nodup_first _ _ _ ND I) as FT.
      unfold literal_type in LT. rewrite FT in LT. discriminate.
Qed.
End Main.

(** *** When the conversion succeeds *)
Definition known_type (l : lit) : Prop :=
  In l (map LStr ["object"; "array"; "integer"; "number"; "boolean"; "string"]).

(** No label occurs twice in a struct. *)
Inductive distinct : node -> Prop :=
| d_lit l : distinct (NLit l)
| d_list es : Forall distinct es -> distinct (NList es)
| d_struct fs : NoDup (map fst fs) -> Forall (fun f => distinct (snd f)) fs -> distinct (NStruct fs)
| d_file ds : Forall distinct ds -> distinct (NFile ds).

Definition offender (root outer : bool) (n : node) (l : lit) : Prop :=
  exists p m, nav n p = Some m /\ role_at root n p = Converted outer /\
    literal_type m = Some l /\ ~ known_type l.

Lemma traverse_err {A B} (f : A -> outcome B) l :
  match traverse f l with
  | Ok _ => forall x, In x l -> exists y, f x = Ok y
  | Err e => exists i x, nth_error l i = Some x /\ f x = Err e
  | Panic => exists i x, nth_error l i = Some x /\ f x = Panic
  | OutOfFuel => exists i x, nth_error l i = Some x /\ f x = OutOfFuel
  end.
Proof.
  induction l as [|a r IH]; cbn [traverse]; [contradiction|].
  destruct (f a) as [y|e| |] eqn:F; cbn [bind].
  2-4: exists 0, a; split; [reflexivity|exact F].
  destruct (traverse f r) as [ys|e| |]; cbn [bind].
  2-4: destruct IH as [i [x [N E]]]; exists (S i), x; split; assumption.
  intros x [->|I]; eauto.
Qed.

Lemma on_all_err f fs :
  match on_all f fs with
  | Ok _ => True
  | Err e => exists k v, In (k, v) fs /\ f v = Err e
  | Panic => exists k v, In (k, v) fs /\ f v = Panic
  | OutOfFuel => exists k v, In (k, v) fs /\ f v = OutOfFuel
  end.
Proof.
  induction fs as [|[k v] r IH]; cbn [on_all]; [exact I|].
  destruct (f v) as [y|e| |] eqn:F; cbn [bind].
  2-4: exists k, v; split; [left; reflexivity|exact F].
  destruct (on_all f r) as [ys|e| |]; cbn [bind]; [exact I| | |];
  destruct IH as [k' [v' [N E]]]; exists k', v'; (split; [right|]; assumption).
Qed.

Lemma on_first_err f labels fs :
  match on_first f labels fs with
  | Ok _ => True
  | Err e => exists k v, In (k, v) fs /\ mem k labels = true /\ f v = Err e
  | Panic => exists k v, In (k, v) fs /\ mem k labels = true /\ f v = Panic
  | OutOfFuel => exists k v, In (k, v) fs /\ mem k labels = true /\ f v = OutOfFuel
  end.
Proof.
  revert labels. induction fs as [|[k v] r IH]; intro labels; cbn [on_first]; [exact I|].
  destruct (existsb (String.eqb k) labels) eqn:X.
  - destruct (f v) as [y|e| |] eqn:F; cbn [bind].
    2-4: exists k, v; split; [left; reflexivity|]; split; [exact X|exact F].
    set (labels' := filter _ labels). specialize (IH labels').
    assert (M : forall k', mem k' labels' = true -> mem k' labels = true).
    { intro k'. unfold labels', mem. rewrite eqb_existsb_filter. intro H. apply andb_prop in H. tauto. }
    destruct (on_first f labels' r) as [ys|e| |]; cbn [bind]; [exact I| | |];
    destruct IH as [k' [v' [N [E Q]]]]; exists k', v'; (split; [right; exact N|split; [apply M, E|exact Q]]).
  - specialize (IH labels).
    destruct (on_first f labels r) as [ys|e| |]; cbn [bind]; [exact I| | |];
    destruct IH as [k' [v' [N [E Q]]]]; exists k', v'; (split; [right; exact N|split; assumption]).
Qed.

Lemma known_scanned l : sane_lit l -> (known_type l <-> scanned (lit_text l) <> None).
Proof.
  intro S. split.
  - intro K. cbn in K. repeat (destruct K as [<-|K]; [discriminate|]). contradiction.
  - intro N. destruct (scanned (lit_text l)) as [labels|] eqn:E; [clear N|contradiction].
    destruct (scanned_subschemas _ _ S E) as [_ [s [-> _]]]. cbn [lit_text] in E.
    destruct (String.eqb_spec s "") as [Q|Q]; [discriminate|]. unfold scanned in E.
    destruct (String.eqb_spec s "object") as [Q1|Q1]; [subst; cbn; tauto|].
    destruct (String.eqb_spec s "array") as [Q2|Q2]; [subst; cbn; tauto|].
    destruct (existsb (String.eqb s) _) eqn:X; [|discriminate].
    apply existsb_exists in X. destruct X as [x [I Y]]. apply String.eqb_eq in Y. subst x.
    apply in_map_iff. exists s. split; [reflexivity|]. cbn in *. tauto.
Qed.

Lemma subschemas_cases l k : mem k (subschemas l) = true -> In k ["properties"; "additionalProperties"; "items"].
Proof.
  intro M. assert (S : subschemas l = [] \/ subschemas l = ["items"] \/ subschemas l = ["properties"; "additionalProperties"]).
  { destruct l as [s| | | |]; try (left; reflexivity).
    destruct (String.string_dec s "object") as [->|N1]; [auto|].
    destruct (String.string_dec s "array") as [->|N2]; [auto|].
    left. unfold subschemas.
    repeat match goal with
    | |- (match ?x with EmptyString => _ | String _ _ => _ end) = [] => destruct x; [reflexivity || (exfalso; congruence)|]
    | |- (match ?x with Ascii _ _ _ _ _ _ _ _ => _ end) = [] => destruct x as [[] [] [] [] [] [] [] []]; try reflexivity
    | _ => reflexivity
    | |- match ?x with EmptyString => ?a | String _ _ => _ end = [] => destruct x; try reflexivity; try (exfalso; congruence)
    end. }
  apply mem_in in M. destruct S as [E|[E|E]]; rewrite E in M; cbn in *; tauto.
Qed.
Lemma sub_not_only l k : mem k (subschemas l) = true -> existsb (String.eqb k) openapi_only = false.
Proof. intro M. apply subschemas_cases in M. cbn in M. repeat (destruct M as [<-|M]; [reflexivity|]). contradiction. Qed.
Lemma sub_not_type l k : mem k (subschemas l) = true -> String.eqb k "type" = false.
Proof. intro M. apply subschemas_cases in M. cbn in M. repeat (destruct M as [<-|M]; [reflexivity|]). contradiction. Qed.

Lemma offender_step root outer n s c l :
  literal_type n = None -> child n s = Some c -> offender root outer c l -> offender root outer n l.
Proof.
  intros T C [p [m [N [R Q]]]]. exists (s :: p), m. cbn [nav role_at]. rewrite C, T. auto.
Qed.

Theorem outcomes root n :
  good n -> distinct n ->
  match scan root n with
  | Ok _ => forall outer l, ~ offender root outer n l
  | Err e => exists l, offender root root n l /\ e = new_err ("unrecognized schema node type " ++ lit_text l)%string
  | Panic => exists l, offender root false n l
  | OutOfFuel => False
  end.
Proof.
  remember (nsize n) as z eqn:Z. revert root n Z.
  induction z as [z IH] using (well_founded_induction Wf_nat.lt_wf).
  intros root n Z G D.
  assert (OK : forall n', scan root n = Ok n' -> forall outer l, ~ offender root outer n l).
  { clear IH Z z. intros n' H outer l [p [m [N [R [T U]]]]]. revert root n n' H G D N R.
    induction p as [|s r IHp]; intros root n n' H G D N R; cbn [nav role_at] in *.
    - injection N as <-. rewrite T in R.
      destruct n as [|es|fs|ds]; try discriminate. cbn [scan] in H. rewrite schema_type_lit, T in H.
      cbn [option_map] in H. destruct (scanned (lit_text l)) eqn:SC; [|discriminate].
      apply U, known_scanned; [|congruence].
      unfold literal_type in T. destruct (first "type" fs) as [[lx| | |]|] eqn:FT; try discriminate. injection T as ->.
      assert (Gt : good (NLit l)) by (apply (good_child (NStruct fs) (Lab "type")); [exact G|exact FT]).
      inversion Gt; assumption.
    - destruct (child n s) as [c|] eqn:C; [|discriminate].
      pose proof (outcome_scan _ _ _ H G) as O. pose proof (good_child _ _ _ G C) as Gc.
      assert (Dc : distinct c).
      { destruct D as [|es F|fs ND F|ds F]; destruct s; try discriminate; cbn in C; rewrite Forall_forall in F.
        - apply nth_error_In in C. auto.
        - apply first_in in C. exact (F _ C).
        - apply nth_error_In in C. auto. }
      destruct (literal_type n) as [l'|].
      + destruct O as [fs [fs' [-> [-> [_ O]]]]]. destruct s as [k|i]; [|discriminate].
        destruct (existsb (String.eqb k) openapi_only) eqn:DD; [discriminate|].
        destruct (String.eqb k "type") eqn:TT; [discriminate|].
        specialize (O _ _ C DD TT). destruct (existsb (String.eqb k) (subschemas l')); [|discriminate].
        destruct O as [c' [E S]]. apply (IHp false c c' S Gc Dc N R).
      + destruct O as [_ O]. destruct (O _ _ C) as [c' [E S]]. apply (IHp root c c' S Gc Dc N R). }
  destruct (scan root n) as [n'|e| |] eqn:H; [exact (OK n' eq_refl)| | |]; clear OK.
  all: destruct n as [l|es|fs|ds]; [discriminate| | |].
  all: cbn [scan] in H.
  all: try (pose proof (traverse_err (scan root) es) as Q; destruct (traverse (scan root) es) eqn:TR;
       cbn [bind] in H; try discriminate; destruct Q as [i [x [N E]]];
       assert (LT : nsize x < z) by (subst z; apply nsize_elt, (nth_error_In _ _ N));
       assert (Gx : good x) by (apply (good_child (NList es) (Idx i)); assumption);
       assert (Dx : distinct x) by (inversion D as [|? F| |]; subst; rewrite Forall_forall in F; apply F, (nth_error_In _ _ N));
       specialize (IH _ LT root x eq_refl Gx Dx); rewrite E in IH; try contradiction; try injection H as <-;
       destruct IH as [l IH]; exists l;
       first [ exact (offender_step _ _ (NList es) (Idx i) x l eq_refl N IH)
             | destruct IH as [IH IE]; split; [exact (offender_step _ _ (NList es) (Idx i) x l eq_refl N IH)|exact IE] ]).
  all: try (pose proof (traverse_err (scan root) ds) as Q; destruct (traverse (scan root) ds) eqn:TR;
       cbn [bind] in H; try discriminate; destruct Q as [i [x [N E]]];
       assert (LT : nsize x < z) by (subst z; pose proof (list_sum_in nsize _ _ (nth_error_In _ _ N)); cbn [nsize]; unfold list_sum in *; lia);
       assert (Gx : good x) by (apply (good_child (NFile ds) (Idx i)); assumption);
       assert (Dx : distinct x) by (inversion D as [| | |? F]; subst; rewrite Forall_forall in F; apply F, (nth_error_In _ _ N));
       specialize (IH _ LT root x eq_refl Gx Dx); rewrite E in IH; try contradiction; try injection H as <-;
       destruct IH as [l IH]; exists l;
       first [ exact (offender_step _ _ (NFile ds) (Idx i) x l eq_refl N IH)
             | destruct IH as [IH IE]; split; [exact (offender_step _ _ (NFile ds) (Idx i) x l eq_refl N IH)|exact IE] ]).
  all: rewrite schema_type_lit in H; destruct (literal_type (NStruct fs)) as [l|] eqn:LTy; cbn [option_map] in H.
  all: inversion D as [| |? ND F|]; subst; rewrite Forall_forall in F.
  all: try (pose proof (on_all_err (scan root) fs) as Q; destruct (on_all (scan root) fs) eqn:TR;
       cbn [bind] in H; try discriminate; destruct Q as [k [x [N E]]];
       assert (LT : nsize x < nsize (NStruct fs)) by (apply (nsize_field _ _ _ N));
       assert (Gx : good x) by (apply (good_field _ _ _ G N));
       assert (Dx : distinct x) by (exact (F _ N));
       specialize (IH _ LT root x eq_refl Gx Dx); rewrite E in IH; try contradiction; try injection H as <-;
       destruct IH as [l IH]; exists l; pose proof (nodup_first _ _ _ ND N) as FK;
       first [ exact (offender_step _ _ (NStruct fs) (Lab k) x l LTy FK IH)
             | destruct IH as [IH IE]; split; [exact (offender_step _ _ (NStruct fs) (Lab k) x l LTy FK IH)|exact IE] ]).
  all: assert (FT : first "type" fs = Some (NLit l))
     by (unfold literal_type in LTy; destruct (first "type" fs) as [[?| | |]|]; try discriminate; congruence).
  all: assert (SL : sane_lit l)
     by (assert (Gt : good (NLit l)) by (apply (good_child (NStruct fs) (Lab "type")); [exact G|exact FT]);
         inversion Gt; assumption).
  all: destruct (scanned (lit_text l)) as [labels|] eqn:SC.
  - destruct (or_panic (on_first (scan false) labels fs)) eqn:OP; cbn [bind] in H; try discriminate.
    destruct (on_first (scan false) labels fs); discriminate.
  - injection H as <-. exists l. split; [|reflexivity].
    exists [], (NStruct fs). cbn [nav role_at]. rewrite LTy. repeat split.
    intro K. apply known_scanned in K; [congruence|exact SL].
  - pose proof (on_first_err (scan false) labels fs) as Q.
    destruct (scanned_subschemas _ _ SL SC) as [-> [s [-> NN]]].
    destruct (on_first (scan false) _ fs) eqn:TR; cbn [or_panic bind] in H; try discriminate;
    destruct Q as [k [x [N [M E]]]];
    (assert (LT : nsize x < nsize (NStruct fs)) by (apply (nsize_field _ _ _ N)));
    (assert (Gx : good x) by (apply (good_field _ _ _ G N)));
    (assert (Dx : distinct x) by (exact (F _ N)));
    specialize (IH _ LT false x eq_refl Gx Dx); rewrite E in IH.
    + destruct IH as [l0 [[p [m [NV [R U]]]] _]]. exists l0, (Lab k :: p), m.
      cbn [nav role_at child]. rewrite (nodup_first _ _ _ ND N), LTy. split; [exact NV|].
      rewrite (sub_not_only _ _ M), (sub_not_type _ _ M). unfold mem in M. rewrite M. split; [exact R|exact U].
    + destruct IH as [l0 [p [m [NV [R U]]]]]. exists l0, (Lab k :: p), m.
      cbn [nav role_at child]. rewrite (nodup_first _ _ _ ND N), LTy. split; [exact NV|].
      rewrite (sub_not_only _ _ M), (sub_not_type _ _ M). unfold mem in M. rewrite M. split; [exact R|exact U].
  - discriminate.
  - pose proof (on_first_err (scan false) labels fs) as Q.
    destruct (on_first (scan false) labels fs) eqn:TR; cbn [or_panic bind] in H; try discriminate.
    destruct Q as [k [x [N [M E]]]].
    assert (LT : nsize x < nsize (NStruct fs)) by (apply (nsize_field _ _ _ N)).
    specialize (IH _ LT false x eq_refl (good_field _ _ _ G N) (F _ N)). rewrite E in IH. exact IH.
  - discriminate.
Qed.
