(** Lemmas that close the theorems of PropertiesGenType.v. *)
From Verif Require Import Prelude Strings Version Util UtilProofs GenName GenNameProofs GenSpellProofs
  GenCommentProofs GenType GenTypeSpec GenTypeProofs GenDeclProofs GenEnumProofs GenMergeProofs.
Local Open Scope string_scope.
Local Open Scope list_scope.

Lemma insert_length {A} (x : string * A) l : length (insert x l) = S (length l).
Proof. induction l as [|y r IH]; [reflexivity|]. cbn [insert]. destruct (str_leb _ _); cbn; lia. Qed.
Lemma by_key_length {A} (l : list (string * A)) : length (by_key l) = length l.
Proof. induction l as [|x l IH]; [reflexivity|]. cbn [by_key fold_right]. rewrite insert_length. cbn [length]. f_equal. exact IH. Qed.

(** In the order of the names. *)
Lemma leb_total a : forall b, str_leb a b = false -> str_leb b a = true.
Proof.
  induction a as [|c a IH]; intros [|d b]; cbn; try reflexivity; try discriminate.
  rewrite (Ascii.eqb_sym d c). destruct (Ascii.eqb c d); [apply IH|]. intros H. apply N.leb_gt in H. apply N.leb_le. lia.
Qed.
Lemma leb_trans a : forall b c, str_leb a b = true -> str_leb b c = true -> str_leb a c = true.
Proof.
  induction a as [|x a IH]; intros [|y b] [|z c]; cbn; try reflexivity; try discriminate.
  destruct (Ascii.eqb_spec x y) as [E|E]; destruct (Ascii.eqb_spec y z) as [F|F].
  - subst y z. rewrite Ascii.eqb_refl. apply IH.
  - subst y. destruct (Ascii.eqb_spec x z); [contradiction|]. auto.
  - subst z. destruct (Ascii.eqb_spec x y); [contradiction|]. auto.
  - intros H1 H2. apply N.leb_le in H1, H2. destruct (Ascii.eqb_spec x z) as [G|G].
    + subst z. assert (Q : N_of_ascii x = N_of_ascii y) by lia. exfalso. apply E.
      rewrite <- (ascii_N_embedding x), <- (ascii_N_embedding y), Q. reflexivity.
    + apply N.leb_le. lia.
Qed.

Inductive sorted : list string -> Prop :=
| sorted_nil : sorted []
| sorted_cons a l : (forall b, In b l -> str_leb a b = true) -> sorted l -> sorted (a :: l).

Lemma insert_sorted {A} (x : string * A) l : sorted (map fst l) -> sorted (map fst (insert x l)).
Proof.
  induction l as [|y r IH]; intros S0; [cbn; constructor; [intros b []|constructor]|].
  cbn [insert]. inversion S0 as [|? ? H1 H2]; subst. destruct (str_leb (fst x) (fst y)) eqn:E.
  - cbn [map]. constructor; [|exact S0]. intros b [<-|I]; [exact E|]. eapply leb_trans; [exact E|apply H1, I].
  - cbn [map]. constructor; [|apply IH, H2]. intros b I. apply in_map_iff in I. destruct I as [z [<- I]].
    rewrite insert_in in I. destruct I as [->|I]; [apply leb_total, E|]. apply H1. apply in_map. exact I.
Qed.
Lemma by_key_sorted {A} (l : list (string * A)) : sorted (map fst (by_key l)).
Proof. induction l as [|x l IH]; [constructor|]. cbn [by_key fold_right]. apply insert_sorted. exact IH. Qed.

Section Facts.
Variable u : unicode.
Variable env : string -> schema.

Lemma type_text n r path : path_ok path -> simple_ref r -> depth_ref r <= n ->
  exists g, generateGoSchema u env n (Some r) path = Ok g /\
    g_type g = render (ty u env path r) /\
    typeDecl g = (if enum_of r && Nat.ltb 1 (length path) then enum_name u path else render (ty u env path r)) /\
    g_desc g = b_desc (s_base (value env r)) /\ g_alias g = alias_of r /\ g_skip g = skips r /\
    map view (additionalTypeDefs g)
    = map sview (inner_defs u env true path r ++ if enum_of r && Nat.ltb 1 (length path) then own u env path [] r else []).
Proof.
  intros P H D. destruct (gen_good u env n r path P H D) as [g [E [G1 G2 G3 G4 G5 G6 G7 G8 G9 G10]]].
  exists g. split; [exact E|]. split; [exact G1|]. split.
  { unfold typeDecl. rewrite G4. destruct (enum_of r && Nat.ltb 1 (length path)); [|exact G1].
    destruct (String.eqb_spec (enum_name u path) "") as [Q|Q]; [exfalso; apply (enum_name_ne u path P Q)|reflexivity]. }
  auto.
Qed.

(** One field for each property, and no others. *)
Lemma fields_props path b props items addl any one :
  objectlike b = true -> (props <> [] \/ any <> None \/ one <> None) ->
  exists fs ad un, body u env path (Sch b props items addl None any one) = GStruct fs ad un /\
    length fs = length props /\
    (forall n r, In (n, r) props ->
       In (field_of u env (b_required b) n r (used u env (path ++ [n]) [] r)) fs) /\
    (forall f, In f fs -> exists n r, In (n, r) props /\
       f = field_of u env (b_required b) n r (used u env (path ++ [n]) [] r)) /\
    (ad <> None <-> (b_has b = true \/ addl <> None)) /\
    (un = true <-> exists r, In r (elements any) \/ In r (elements one)).
Proof.
  intros O N. rewrite body_eq, O.
  assert (NB : nonempty props || has_list any || has_list one = true).
  { destruct props, any, one; try reflexivity. destruct N as [N|[N|N]]; congruence. }
  rewrite NB. eexists. eexists. eexists. split; [reflexivity|].
  split; [rewrite map_length, by_key_length, map_length; reflexivity|]. split; [|split; [|split]].
  - intros n r I. apply in_map_iff. eexists (_, _). split; [|rewrite by_key_in; apply in_map_iff; exists (n, r); split; [reflexivity|exact I]]. reflexivity.
  - intros f I. apply in_map_iff in I. destruct I as [[k f'] [<- I]]. rewrite by_key_in in I. apply in_map_iff in I.
    destruct I as [[n r] [Q I]]. injection Q as <- <-. exists n, r. split; [exact I|reflexivity].
  - destruct (b_has b), addl; cbn; split; intros; try discriminate; try tauto; intuition congruence.
  - setoid_rewrite <- in_app_iff. destruct (elements any ++ elements one) as [|r l].
    + split; [discriminate|intros [r []]].
    + split; [exists r; left; reflexivity|reflexivity].
Qed.

(** Types that are not known. *)
Definition known_types : list string := [""; "object"; "array"; "integer"; "number"; "boolean"; "string"; "inner"].

Lemma unknown_type n b props items addl any one path : ~ In (b_type b) known_types ->
  generateGoSchema u env (S n) (Some (Inl (Sch b props items addl None any one))) path
  = Err (wrap ("error resolving primitive type: unhandled Schema type: " ++ b_type b)%string
           (new_err ("unhandled Schema type: " ++ b_type b))).
Proof.
  intros H.
  assert (K : forall t, In t known_types -> String.eqb (b_type b) t = false).
  { intros t I. destruct (String.eqb_spec (b_type b) t) as [E|E]; [subst t; contradiction|reflexivity]. }
  cbn [generateGoSchema ref_of]. unfold isGoTypeReference at 1. cbn [String.eqb negb andb value].
  unfold gen_schema. cbn [s_allOf s_base s_props bind].
  rewrite !K by (cbn; auto). cbn [orb]. unfold gen_other. cbn [s_base]. unfold oapiSchemaToGoType. cbn [s_base].
  rewrite !K by (cbn; auto 10). reflexivity.
Qed.

Lemma bad_format n b props items addl any one path :
  (b_type b = "number" /\ ~ In (b_format b) ["double"; "float"; ""] \/ b_type b = "boolean" /\ b_format b <> "") ->
  exists e, generateGoSchema u env (S n) (Some (Inl (Sch b props items addl None any one))) path = Err e /\
    e_text e = ("error resolving primitive type: "
                ++ if String.eqb (b_type b) "number" then "invalid number format: " ++ b_format b
                   else "invalid format (" ++ b_format b ++ ") for boolean")%string.
Proof.
  intros H. destruct b as [t f]. cbn [b_type b_format] in *.
  destruct H as [[-> H]|[-> H]]; cbn [generateGoSchema ref_of]; unfold isGoTypeReference; cbn [String.eqb negb andb value];
    unfold gen_schema, gen_other, oapiSchemaToGoType; cbn -[wrap new_err].
  - destruct (String.eqb_spec f "double"); [exfalso; apply H; cbn; auto|].
    destruct (String.eqb_spec f "float"); [exfalso; apply H; cbn; auto|].
    destruct (String.eqb_spec f ""); [exfalso; apply H; cbn; auto|]. cbn [orb because bind].
    eexists. split; reflexivity.
  - destruct (String.eqb_spec f ""); [contradiction|]. eexists. split; reflexivity.
Qed.

(** *** Declarations *)

Definition plain_base (t : string) : base :=
  mkBase t "" "" [] [] false false false false false false false false false false.
Definition object_of (props : list (string * sref)) : schema := Sch (plain_base "object") props None None None None None.

Definition lost_doc : list (string * sref) :=
  [("Foo", Inl (Sch (plain_base "object") [] None (Some (Inl (object_of [("e", enum_schema ["a"])]))) None None None))].

Lemma lost : doc_ok lost_doc /\ NoDup (dnames (doc_decls u env lost_doc)) /\
  exists d id, In d (doc_decls u env lost_doc) /\ In id (ids (dty d)) /\
    ~ In id builtins /\ ~ In id (dnames (doc_decls u env lost_doc)).
Proof.
  split.
  { intros p [<-|[]]. split; [reflexivity|]. cbn. repeat split; auto. right. right. discriminate. }
  assert (D : dnames (doc_decls u env lost_doc) = ["Foo"]) by reflexivity. rewrite D.
  split; [constructor; [intros []|constructor]|].
  eexists. exists "FooE". split; [left; reflexivity|]. split; [left; reflexivity|].
  split; [cbn; intuition discriminate|]. intros [Q|[]]. discriminate.
Qed.

(** Inside a union it is not declared either. *)
Definition lost_union : list (string * sref) :=
  [("Foo", Inl (Sch (plain_base "") [] None None None None
                  (Some [Inl (object_of [("e", enum_schema ["a"])]); Inl (Sch (plain_base "string") [] None None None None None)])))].

Lemma lost_in_union : doc_ok lost_union /\ NoDup (dnames (doc_decls u env lost_union)) /\
  exists d id, In d (doc_decls u env lost_union) /\ In id (ids (dty d)) /\
    ~ In id builtins /\ ~ In id (dnames (doc_decls u env lost_union)).
Proof.
  split.
  { intros p [<-|[]]. split; [reflexivity|]. cbn. repeat split; auto; right; right; discriminate. }
  assert (D : dnames (doc_decls u env lost_union) = ["Foo"; "Foo0"; "Foo1"]) by reflexivity. rewrite D.
  split; [repeat constructor; cbn; intuition discriminate|].
  eexists. exists "FooE". split; [right; left; reflexivity|]. split; [left; reflexivity|].
  split; [cbn; intuition discriminate|]. cbn. intuition discriminate.
Qed.

(** An enum that is an element of a union is not declared under the name it is
    used by. *)
Definition lost_enum : list (string * sref) :=
  [("Foo", Inl (object_of [("v", Inl (Sch (plain_base "") [] None None None None (Some [enum_schema ["a"]])))]))].

Lemma lost_as_element : doc_ok lost_enum /\ NoDup (dnames (doc_decls u env lost_enum)) /\
  exists d id, In d (doc_decls u env lost_enum) /\ In id (ids (dty d)) /\
    ~ In id builtins /\ ~ In id (dnames (doc_decls u env lost_enum)).
Proof.
  split.
  { intros p [<-|[]]. split; [reflexivity|]. cbn. repeat split; auto; right; right; discriminate. }
  assert (D : dnames (doc_decls u env lost_enum) = ["Foo"; "FooV0"; "Foo_V"]) by reflexivity. rewrite D.
  split; [repeat constructor; cbn; intuition discriminate|].
  eexists. exists "FooV". split; [right; left; reflexivity|]. split; [left; reflexivity|].
  split; [cbn; intuition discriminate|]. cbn. intuition discriminate.
Qed.

(** *** Compositions *)

Definition strs : sref := Inl (Sch (plain_base "string") [] None None None None None).

(** The composition of [Foo] and [Bar]: it has no properties of its own. *)
Lemma compose_panics n path any one it ad b r l :
  ref_of r <> "" -> contains (last_part (split_str (ref_of r) "/")) "_" = false ->
  generateGoSchema u env (S n) (Some (Inl (Sch b [] it ad (Some (r :: l)) any one))) path = Panic.
Proof.
  intros H1 H2. cbn [generateGoSchema ref_of]. unfold isGoTypeReference at 1. cbn [String.eqb negb andb value].
  unfold gen_schema. cbn [s_allOf s_base s_props allof_loop].
  destruct (String.eqb_spec (ref_of r) ""); [contradiction|]. rewrite H2. reflexivity.
Qed.

(** A reference to a name with an underscore is left out. *)
Lemma compose_underscore n path b p ps it ad r :
  ref_of r <> "" -> contains (last_part (split_str (ref_of r) "/")) "_" = true -> objectlike b = true ->
  generateGoSchema u env (S n) (Some (Inl (Sch b (p :: ps) it ad (Some [r]) None None))) path
  = match generateGoSchema u env (S n) (Some (Inl (Sch b (p :: ps) it ad None None None))) path with
    | Ok g => Ok (with_oapi (Some (Sch b (p :: ps) it ad (Some [r]) None None)) g)
    | o => o
    end.
Proof.
  intros H1 H2 O. cbn [generateGoSchema ref_of]. unfold isGoTypeReference. cbn [String.eqb negb andb value].
  unfold gen_schema. cbn [s_allOf s_base s_props allof_loop].
  destruct (String.eqb_spec (ref_of r) ""); [contradiction|]. rewrite H2. cbn [bind].
  change (String.eqb (b_type b) "" || String.eqb (b_type b) "object") with (objectlike b). rewrite O.
  unfold gen_object. cbn [s_base s_anyOf s_oneOf s_addl andb]. unfold hasAdditional. cbn [s_base s_addl].
  destruct ad as [x|].
  - destruct (because _ _); cbn [bind]; try reflexivity. destruct (gen_props _ _ _ _ _ _); cbn [bind gen_union_opt]; reflexivity.
  - cbn [bind]. destruct (gen_props _ _ _ _ _ _); cbn [bind gen_union_opt]; reflexivity.
Qed.

(** Neither the [anyOf] of a composed schema nor those of its parts are kept. *)
Lemma compose_any mergeAll l : forall acc m, l <> [] -> merge_loop env mergeAll acc l = Ok m -> s_anyOf m = None.
Proof.
  induction l as [|r l IH]; intros acc m N H; [congruence|]. cbn [merge_loop] in H.
  destruct (mergeOpenapi mergeAll acc (value env r)) as [m1|e| |] eqn:E; cbn [because bind] in H; try discriminate.
  destruct l as [|q l]; [|apply (IH m1 m); [discriminate|exact H]]. cbn [merge_loop] in H. injection H as <-.
  unfold mergeOpenapi in E.
  destruct (match s_allOf acc with Some l => _ | None => _ end) as [s1| | |]; cbn [bind] in E; try discriminate.
  destruct (match s_allOf (value env r) with Some l => _ | None => _ end) as [s2| | |]; cbn [bind] in E; try discriminate.
  unfold merge_flat in E. repeat match type of E with (if ?c then _ else _) = _ => destruct c; [discriminate|] end.
  injection E as <-. reflexivity.
Qed.

(** What a part of a part declares itself is lost. *)
Lemma compose_nested : exists part m,
  In "own" (map fst (s_props part)) /\
  merge_loop env (mergeAllOf env 5) (object_of [("x", strs)]) [Inl part] = Ok m /\
  lookup "own" (s_props m) = None /\ lookup "deep" (s_props m) <> None.
Proof.
  exists (Sch (plain_base "object") [("own", strs)] None None (Some [Inl (object_of [("deep", strs)])]) None None).
  eexists. split; [left; reflexivity|]. split; [reflexivity|]. split; [reflexivity|discriminate].
Qed.
End Facts.
