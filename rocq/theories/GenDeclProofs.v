(** Proofs about the declarations of a generated file. *)
From Verif Require Import Prelude Strings Version Util UtilProofs GenName GenNameProofs GenSpellProofs
  GenCommentProofs GenType GenTypeSpec GenTypeProofs.
Local Open Scope string_scope.
Local Open Scope list_scope.

(** *** The file *)

Section Doc.
Variable u : unicode.
Variable env : string -> schema.

Definition top_constants (r : sref) : list (string * string) :=
  match r with Inl s => constants u (s_base s) | Ref _ => [] end.

(** What a document declares: for every component, in the order of their names,
    the component and what it needs. *)
Definition doc_decls (l : list (string * sref)) : list decl :=
  flat_map (fun p => (schemaNameToTypeName u (fst p), fst p, b_desc (s_base (value env (snd p))),
                      alias_of (snd p), top_constants (snd p), ty u env [fst p] (snd p))
                     :: inner_defs u env true [fst p] (snd p)) (by_key l).

Definition doc_ok (l : list (string * sref)) : Prop :=
  forall p, In p l -> letter_first (fst p) = true /\ simple_ref (snd p).
Definition doc_depth (l : list (string * sref)) : nat :=
  fold_right (fun p m => Nat.max (depth_ref (snd p)) m) 1 l.

Lemma types_for_spec n l : (forall p, In p l -> letter_first (fst p) = true /\ simple_ref (snd p) /\ depth_ref (snd p) <= n) ->
  exists ts, types_for u env n l = Ok ts /\
    map view ts = map sview (flat_map (fun p => (schemaNameToTypeName u (fst p), fst p, b_desc (s_base (value env (snd p))),
                      alias_of (snd p), top_constants (snd p), ty u env [fst p] (snd p)) :: inner_defs u env true [fst p] (snd p)) l).
Proof.
  induction l as [|[k r] l IH]; intros H; [exists []; split; reflexivity|].
  destruct IH as [ts [E V]]; [intros p I; apply H; right; exact I|].
  destruct (H (k, r) (or_introl eq_refl)) as [L [S0 D]]. cbn [fst snd] in *.
  destruct (gen_good u env n r [k] L S0 D) as [g [EG [G1 G2 G3 G4 G5 G6 G7 G8 G9 G10]]].
  cbn [types_for]. rewrite EG. cbn [because bind]. rewrite E. cbn [bind]. eexists. split; [reflexivity|].
  cbn [flat_map map fst snd app]. rewrite !map_app. f_equal; [|f_equal; [|exact V]].
  - unfold view, sview, typeDecl. cbn [fst snd]. rewrite G6, G7, G4, G10, G1, G2, G3. rewrite andb_false_r.
    destruct r as [q|s]; [reflexivity|]. cbn [ty]. rewrite under_body, body_methods. reflexivity.
  - rewrite G9. unfold enum_own. cbn [length]. rewrite andb_false_r, app_nil_r. reflexivity.
Qed.

Lemma generate_spec n l : doc_ok l -> doc_depth l <= n ->
  exists ts, generateTypesForSchemas u env n l = Ok ts /\ map view ts = map sview (doc_decls l).
Proof.
  intros H D. apply types_for_spec. intros p I. rewrite by_key_in in I. destruct (H p I) as [H1 H2].
  split; [exact H1|]. split; [exact H2|]. pose proof (depth_props l p I). unfold doc_depth in D. lia.
Qed.

(** How a declaration is written. *)
Definition decl_text (d : decl) : string :=
  let '(n, j, desc, alias, _, t) := d in
  (newline ++ (if String.eqb desc "" then "// " ++ n ++ " defines model for " ++ j ++ "."
               else stringWithTypeNameToGoComment desc n) ++ newline
   ++ "type " ++ n ++ " " ++ (if alias then "=" else "") ++ " " ++ render t ++ newline)%string.

Lemma text_view d d' : view d = sview d' -> typedef_text d = decl_text d'.
Proof.
  destruct d as [[n j] g], d' as [[[[[n' j'] ds] a] c] t]. unfold view, sview, typedef_text, decl_text. cbn [fst snd].
  intros H. injection H as -> -> -> -> _ _ -> _. reflexivity.
Qed.

Definition tnames {A B} (l : list (string * A * B)) : list string := map (fun d => fst (fst d)) l.
Definition dnames (l : list decl) : list string := map (fun d => fst (fst (fst (fst (fst d))))) l.

Lemma view_names ts ds : map view ts = map sview ds -> tnames ts = dnames ds.
Proof.
  revert ds. induction ts as [|d ts IH]; intros [|e ds] H; try discriminate; [reflexivity|].
  cbn [map] in H. injection H as H1 H. cbn [tnames dnames map]. f_equal; [|apply IH, H].
  destruct d as [[n j] g], e as [[[[[n' j'] dd] a] c] t]. unfold view, sview in H1. cbn in *. congruence.
Qed.

Lemma unique_all same ts : forall seen, NoDup (tnames ts) -> (forall d, In d seen -> ~ In (fst (fst d)) (tnames ts)) ->
  unique_types same seen ts = Ok ts.
Proof.
  induction ts as [|d ts IH]; intros seen N H; [reflexivity|]. cbn [unique_types]. inversion N as [|? ? N1 N2]; subst.
  destruct (find _ seen) as [e|] eqn:F.
  - apply find_some in F. destruct F as [F1 F2]. apply String.eqb_eq in F2. exfalso. apply (H e F1). left. symmetry. exact F2.
  - rewrite IH; [reflexivity|exact N2|]. intros e [<-|I]; [exact N1|]. intros Q. apply (H e I). right. exact Q.
Qed.

(** Whatever the types: no name is declared twice, and none is left out. *)
Lemma unique_sound same ts : forall seen us, unique_types same seen ts = Ok us ->
  NoDup (tnames us) /\ (forall d, In d us -> In d ts /\ ~ In (fst (fst d)) (tnames seen)) /\
  (forall n, In n (tnames ts) -> In n (tnames seen) \/ In n (tnames us)).
Proof.
  induction ts as [|d ts IH]; intros seen us H; cbn [unique_types] in H.
  - injection H as <-. split; [constructor|]. split; [intros d []|intros n []].
  - destruct (find _ seen) as [e|] eqn:F.
    + destruct (same _ _); [|discriminate]. destruct (IH _ _ H) as [A [B C]]. split; [exact A|]. split.
      * intros x I. destruct (B x I). split; [right; assumption|assumption].
      * intros n [<-|I]; [|apply C, I]. apply find_some in F. destruct F as [F1 F2]. apply String.eqb_eq in F2.
        left. rewrite <- F2. apply in_map_iff. exists e. split; [reflexivity|exact F1].
    + destruct (unique_types same (d :: seen) ts) as [more| | |] eqn:E; try discriminate. injection H as <-.
      destruct (IH _ _ E) as [A [B C]].
      assert (ND : ~ In (fst (fst d)) (tnames seen)).
      { intros I. apply in_map_iff in I. destruct I as [e [Q I]]. pose proof (find_none _ _ F e I) as Z. cbn in Z.
        rewrite Q, String.eqb_refl in Z. discriminate. }
      split; [|split].
      * constructor; [|exact A]. intros I. apply in_map_iff in I. destruct I as [e [Q I]].
        destruct (B e I) as [_ Z]. apply Z. left. symmetry. exact Q.
      * intros x [<-|I]; [split; [left; reflexivity|exact ND]|]. destruct (B x I) as [B1 B2].
        split; [right; exact B1|]. intros Z. apply B2. right. exact Z.
      * intros n [<-|I]; [right; left; reflexivity|]. destruct (C n I) as [[<-|Z]|Z];
          [right; left; reflexivity|left; exact Z|right; right; exact Z].
Qed.

(** Refused: the first type whose name is taken by another schema. *)
Lemma unique_fails same ts : forall seen e, unique_types same seen ts = Err e ->
  exists a d b f, ts = a ++ d :: b /\ In f (seen ++ a) /\ fst (fst f) = fst (fst d) /\
    same (g_oapi (snd f)) (g_oapi (snd d)) = false /\
    e_text e = ("duplicate typename '" ++ fst (fst d) ++ "' detected, can't auto-rename, please use x-go-name to specify your own name for one of them")%string.
Proof.
  induction ts as [|d ts IH]; intros seen e H; cbn [unique_types] in H; [discriminate|].
  destruct (find _ seen) as [f|] eqn:F.
  - apply find_some in F. destruct F as [F1 F2]. apply String.eqb_eq in F2. destruct (same _ _) eqn:S0.
    + destruct (IH _ _ H) as [a [d' [b [g [-> [I R]]]]]]. exists (d :: a), d', b, g. split; [reflexivity|]. split; [|exact R].
      apply in_app_iff in I. apply in_app_iff. cbn. tauto.
    + injection H as <-. exists [], d, ts, f. split; [reflexivity|]. split; [rewrite app_nil_r; exact F1|].
      split; [exact F2|]. split; [exact S0|reflexivity].
  - destruct (unique_types same (d :: seen) ts) as [|e'| |] eqn:E; try discriminate. injection H as <-.
    destruct (IH _ _ E) as [a [d' [b [g [-> [I R]]]]]]. exists (d :: a), d', b, g. split; [reflexivity|]. split; [|exact R].
    apply in_app_iff in I. apply in_app_iff. cbn in *. tauto.
Qed.

(** The whole text. *)
Lemma file_text same n l : doc_ok l -> doc_depth l <= n -> NoDup (dnames (doc_decls l)) ->
  exists ts, generateTypesForSchemas u env n l = Ok ts /\
    generateTypes same ts = Ok (String.concat "" (map decl_text (doc_decls l)) ++ newline)%string.
Proof.
  intros H D N. destruct (generate_spec n l H D) as [ts [E V]]. exists ts. split; [exact E|].
  unfold generateTypes. rewrite unique_all; [|rewrite (view_names _ _ V); exact N|intros d []]. cbn [bind].
  do 3 f_equal. clear - V. revert V. generalize (doc_decls l). induction ts as [|d ts IH]; intros [|e ds] V; try discriminate; [reflexivity|].
  cbn [map] in *. injection V as V1 V. f_equal; [|apply IH, V]. apply text_view. exact V1.
Qed.

(** *** Identifiers *)

Definition builtins : list string :=
  ["any"; "bool"; "byte"; "string"; "int64"; "int32"; "int16"; "int8"; "int"; "uint64"; "uint32"; "uint16";
   "uint8"; "uint"; "float64"; "float32"; "time.Time"; "openapi_types.Date"; "openapi_types.Email";
   "openapi_types.UUID"; "json.RawMessage"].

(** Whether a schema needs declarations. *)
Fixpoint needs (s : schema) : bool :=
  match s with
  | Sch b props items addl _ anyOf oneOf =>
      if objectlike b then
        owned (Inl s)
        || existsb (fun p => needs_ref (snd p)) props
        || match addl with Some r => needs_ref r | None => false end
      else match b_enum b with [] => false | _ => true end
           || (arraylike b && match items with Some r => needs_ref r | None => false end)
  end
with needs_ref (r : sref) : bool := match r with Ref _ => false | Inl s => needs s end.

(** Inside additional properties, objects have no properties that need
    declarations: [inside]. Elements of unions need none. *)
Fixpoint kept (inside : bool) (s : schema) : Prop :=
  match s with
  | Sch b props items addl _ anyOf oneOf =>
      if objectlike b then
        (fix go (l : list (string * sref)) : Prop :=
           match l with
           | [] => True
           | p :: r => (if inside then needs_ref (snd p) = false else kept_ref false (snd p)) /\ go r
           end) props /\
        match addl with None => True | Some r => kept_ref true r end /\
        (forall r, In r (elements anyOf ++ elements oneOf) -> needs_ref r = false)
      else if arraylike b then match items with None => True | Some r => kept_ref inside r end
      else True
  end
with kept_ref (inside : bool) (r : sref) : Prop :=
  match r with Ref _ => True | Inl s => kept inside s end.

Lemma kept_props (inside : bool) l :
  (fix go (l : list (string * sref)) : Prop :=
     match l with
     | [] => True
     | p :: r => (if inside then needs_ref (snd p) = false else kept_ref false (snd p)) /\ go r
     end) l <->
  forall p, In p l -> if inside then needs_ref (snd p) = false else kept_ref false (snd p).
Proof.
  induction l as [|p r IH]; [split; [intros _ q []|exact (fun _ => I)]|]. rewrite IH. split.
  - intros [H1 H2] q [<-|Q]; [exact H1|exact (H2 q Q)].
  - intros H. split; [apply H; left; reflexivity|]. intros q Q. apply H. right. exact Q.
Qed.

Lemma needs_no_own r path sfx : needs_ref r = false -> own u env path sfx r = [].
Proof.
  destruct r as [r|s]; [reflexivity|]. cbn [needs_ref]. unfold own, enumlike. cbn [s_base].
  destruct s as [b ps it ad al an on]. cbn [needs s_base].
  destruct (objectlike b) eqn:O; cbn [negb andb].
  - intros H. apply orb_false_iff in H. destruct H as [H _]. apply orb_false_iff in H. destruct H as [-> _]. reflexivity.
  - intros H. apply orb_false_iff in H. destruct H as [H _]. destruct (b_enum b); [|discriminate].
    cbn [andb owned]. unfold structlike. cbn [s_base]. rewrite O. reflexivity.
Qed.

Lemma defs_in_eq w path b props items addl al an on :
  defs_in u env w path (Sch b props items addl al an on) =
  if objectlike b then
    (if w then flat_map snd (by_key (map (fun p => (fst p, defs u env true (path ++ [fst p]) [] (snd p))) props)) else [])
    ++ match addl with None => [] | Some r => defs u env false path ["AdditionalProperties"] r end
    ++ elements_from u env 0 path (elements an) ++ elements_from u env 0 path (elements on)
  else if arraylike b then
    match items with None => [] | Some r => defs u env w path ["Item"] r end
  else [].
Proof. reflexivity. Qed.

Lemma body_eq path b props items addl al an on :
  body u env path (Sch b props items addl al an on) =
  if objectlike b then
    if nonempty props || has_list an || has_list on then
      GStruct
        (map snd (by_key (map (fun p =>
           (fst p, field_of u env (b_required b) (fst p) (snd p) (used u env (path ++ [fst p]) [] (snd p)))) props)))
        (if b_has b || match addl with Some _ => true | None => false end
         then Some (match addl with None => GId "any" | Some r => used u env path ["AdditionalProperties"] r end) else None)
        (nonempty (elements an ++ elements on))
    else if b_has b || match addl with Some _ => true | None => false end
         then GMap (match addl with None => GId "any" | Some r => used u env path ["AdditionalProperties"] r end)
         else if String.eqb (b_type b) "object" then GMap (GId "any") else GId "any"
  else if arraylike b then
    GSlice (match items with None => GId "any" | Some r => used u env path ["Item"] r end)
  else match scalar (b_type b) (b_format b) with Some t => t | None => GId "any" end.
Proof. reflexivity. Qed.

Lemma needs_nothing n : forall r, depth_ref r <= n -> needs_ref r = false ->
  (forall w path sfx, defs u env w path sfx r = []) /\ (forall inside, kept_ref inside r).
Proof.
  induction n as [|n IH]; intros r D N; [pose proof (depth_pos r); lia|].
  destruct r as [r|s]; [split; [reflexivity|exact (fun _ => I)]|].
  assert (X : (forall w path, defs_in u env w path s = []) /\ forall inside, kept inside s).
  { destruct s as [b ps it ad al an on]. cbn [depth_ref depth] in D. cbn [needs_ref needs] in N.
    destruct (objectlike b) eqn:O.
    - apply orb_false_iff in N. destruct N as [N N3]. apply orb_false_iff in N. destruct N as [N1 N2].
      assert (NU : elements an ++ elements on = []).
      { cbn [owned] in N1. unfold structlike, union_of in N1. cbn [s_base s_props s_anyOf s_oneOf] in N1. rewrite O in N1.
        destruct (elements an ++ elements on) eqn:Q; [reflexivity|]. cbn [nonempty] in N1. rewrite orb_true_r, andb_true_r in N1.
        destruct an as [la|]; [cbn [has_list] in N1; rewrite orb_true_r in N1; discriminate|].
        destruct on as [lo|]; [|discriminate]. cbn [has_list] in N1. rewrite orb_true_r in N1. discriminate. }
      assert (NUA : elements an = [] /\ elements on = []) by (apply app_eq_nil; exact NU). destruct NUA as [NA NO].
      assert (PN : forall p, In p ps -> needs_ref (snd p) = false /\ depth_ref (snd p) <= n).
      { intros p I. pose proof (depth_props ps p I). split; [|lia]. destruct (needs_ref (snd p)) eqn:Q; [|reflexivity].
        assert (E : existsb (fun p => needs_ref (snd p)) ps = true) by (apply existsb_exists; eauto). congruence. }
      assert (AD : match ad with None => True | Some r => (forall w path sfx, defs u env w path sfx r = []) /\ (forall inside, kept_ref inside r) end).
      { destruct ad as [r|]; [|exact I]. apply IH; [lia|exact N3]. }
      split.
      + intros w path. rewrite defs_in_eq, O.
        assert (E1 : match ad with None => [] | Some r => defs u env false path ["AdditionalProperties"] r end = []).
        { destruct ad as [r|]; [apply AD|reflexivity]. }
        rewrite E1, NA, NO. cbn [elements_from app]. rewrite app_nil_r. destruct w; [|reflexivity].
        rewrite (by_key_map (fun p => defs u env true (path ++ [fst p]) [] (snd p))).
        assert (F : forall p, In p (by_key ps) -> defs u env true (path ++ [fst p]) [] (snd p) = []).
        { intros p I. rewrite by_key_in in I. destruct (PN p I) as [Q1 Q2]. apply (IH (snd p) Q2 Q1). }
        induction (by_key ps) as [|q qs IHq]; [reflexivity|]. cbn [map flat_map snd]. rewrite (F q (or_introl eq_refl)).
        apply IHq. intros p I. apply F. right. exact I.
      + intros inside. cbn [kept]. rewrite O. rewrite kept_props. split.
        * intros p I. destruct (PN p I) as [Q1 Q2]. destruct inside; [exact Q1|]. apply (IH (snd p) Q2 Q1).
        * split; [destruct ad as [r|]; [apply AD|exact I]|]. rewrite NU. intros r [].
    - apply orb_false_iff in N. destruct N as [N1 N2].
      destruct (arraylike b) eqn:A; cbn [andb] in N2.
      + destruct it as [r|].
        * destruct (IH r) as [X1 X2]; [lia|exact N2|]. split; intros; rewrite ?defs_in_eq; cbn [kept]; rewrite O, A; auto.
        * split; intros; rewrite ?defs_in_eq; cbn [kept]; rewrite O, A; auto.
      + split; intros; rewrite ?defs_in_eq; cbn [kept]; rewrite O, A; auto. }
  destruct X as [X1 X2]. split; [|exact X2]. intros w path sfx. cbn [defs]. rewrite X1. apply (needs_no_own (Inl s)), N.
Qed.

(** *** Every identifier is declared *)

Definition resolved (ds : list decl) (rs : list string) (t : gty) : Prop :=
  forall id, In id (ids t) ->
    In id builtins \/ (exists q, In q rs /\ id = ref_name u q) \/ In id (dnames ds).

Lemma resolved_more ds rs t ds' rs' : resolved ds rs t -> (forall d, In d ds -> In d ds') ->
  (forall r, In r rs -> In r rs') -> resolved ds' rs' t.
Proof.
  intros H D R id I. destruct (H id I) as [B|[[q [Q E]]|B]]; [left; exact B|right; left; eauto|].
  right. right. apply in_map_iff in B. destruct B as [d [E B]]. apply in_map_iff. eauto.
Qed.

Lemma scalar_ids t f g : scalar t f = Some g -> forall id, In id (ids g) -> In id builtins.
Proof.
  unfold scalar, formats. intros H.
  assert (X : incl (ids g) builtins); [|exact X].
  assert (D : forall x, In x builtins -> incl [x] builtins) by (intros x I y [<-|[]]; exact I).
  destruct (String.eqb t "integer").
  - cbn [map lookup] in H.
    repeat match type of H with (match (if ?c then _ else _) with _ => _ end) = _ =>
             destruct c; [injection H as <-; apply D; cbn; tauto|] end.
    injection H as <-. apply D. cbn. tauto.
  - destruct (String.eqb t "number").
    { cbn [lookup] in H.
      repeat match type of H with (match (if ?c then _ else _) with _ => _ end) = _ =>
             destruct c; [injection H as <-; apply D; cbn; tauto|] end.
      destruct (String.eqb t "string"); [injection H as <-; apply D; cbn; tauto|discriminate]. }
    destruct (String.eqb t "boolean").
    { cbn [lookup] in H.
      repeat match type of H with (match (if ?c then _ else _) with _ => _ end) = _ =>
             destruct c; [injection H as <-; apply D; cbn; tauto|] end.
      destruct (String.eqb t "string"); [injection H as <-; apply D; cbn; tauto|discriminate]. }
    destruct (String.eqb t "string"); [|discriminate].
    cbn [lookup] in H.
    repeat match type of H with (match (if ?c then _ else _) with _ => _ end) = _ =>
             destruct c; [injection H as <-; apply D; cbn; tauto|] end.
    injection H as <-. apply D. cbn. tauto.
Qed.

Lemma field_ids required m r t : ids (snd (field_of u env required m r t)) = ids t.
Proof. unfold field_of. cbn [snd]. destruct (_ && _); reflexivity. Qed.

Definition at_ inside path (r : sref) := inner_defs u env (negb inside) path r.

Lemma used_resolved inside path sfx r :
  resolved (at_ inside path r) (refs_ref r) (ty u env path r) ->
  resolved (defs u env (negb inside) path sfx r) (refs_ref r) (used u env path sfx r).
Proof.
  intros H id I. rewrite defs_split. fold (at_ inside path r).
  destruct r as [r|s]; cbn [used] in I.
  - destruct (H id I) as [B|[B|[]]]; auto.
  - unfold own. destruct (_ && _).
    { destruct I as [<-|[]]. right. right. unfold dnames. rewrite map_app. apply in_app_iff. right. left. reflexivity. }
    destruct (owned (Inl s)).
    { destruct I as [<-|[]]. right. right. unfold dnames. rewrite map_app. apply in_app_iff. right. left. reflexivity. }
    rewrite app_nil_r. apply H. exact I.
Qed.

Lemma in_by_key_flat (f : string * sref -> list decl) ps p d : In p ps -> In d (f p) ->
  In d (flat_map snd (by_key (map (fun p => (fst p, f p)) ps))).
Proof.
  intros I J. apply in_flat_map. exists (fst p, f p). split; [|exact J]. apply by_key_in. apply in_map_iff. eauto.
Qed.

Lemma body_resolved n : forall r inside path, depth_ref r <= n -> simple_ref r -> kept_ref inside r ->
  resolved (at_ inside path r) (refs_ref r) (ty u env path r).
Proof.
  induction n as [|n IH]; intros r inside path D S0 K; [pose proof (depth_pos r); lia|].
  destruct r as [r|s].
  { intros id [<-|[]]. right. left. exists r. split; [left; reflexivity|reflexivity]. }
  destruct s as [b ps it ad al an on]. cbn [depth_ref depth] in D. cbn [kept_ref kept] in K.
  cbn [simple_ref simple] in S0. destruct S0 as [-> [HAN [HON [HI [HA [HP HT]]]]]]. rewrite simple_props in HP. rewrite simple_elements in HAN, HON.
  unfold at_, inner_defs, ty. cbn [refs_ref refs]. rewrite body_eq, defs_in_eq. destruct (objectlike b) eqn:O.
  - rewrite kept_props in K. destruct K as [KP [KA KU]].
    set (elem := match ad with None => GId "any" | Some r => used u env path ["AdditionalProperties"] r end).
    set (ads := match ad with None => [] | Some r => defs u env false path ["AdditionalProperties"] r end).
    assert (RE : resolved ads (match ad with None => [] | Some r => refs_ref r end) elem).
    { unfold ads, elem. destruct ad as [r|]; [|intros id [<-|[]]; left; cbn; tauto].
      apply (used_resolved true). apply IH; [lia|exact HA|exact KA]. }
    assert (ANY : forall ds rs, resolved ds rs (GId "any")) by (intros ds rs id [<-|[]]; left; cbn; tauto).
    assert (RE' : forall ds, (forall d, In d ads -> In d ds) ->
       resolved ds (flat_map (fun p => refs_ref (snd p)) ps ++ match it with None => [] | Some r => refs_ref r end
                    ++ match ad with None => [] | Some r => refs_ref r end
                    ++ match an with None => [] | Some l => flat_map refs_ref l end
                    ++ match on with None => [] | Some l => flat_map refs_ref l end) elem).
    { intros ds Q. apply (resolved_more _ _ _ _ _ RE Q). intros r I. rewrite !in_app_iff. tauto. }
    destruct (nonempty ps || _ || _).
    2:{ destruct (_ || _).
      * cbn [ids]. intros id I. cbn [ids] in I.
        apply (RE' _ (fun d Q => proj2 (in_app_iff _ _ _) (or_intror (proj2 (in_app_iff _ _ _) (or_introl Q)))) id I).
      * destruct (String.eqb (b_type b) "object"); intros id I; apply (ANY _ _ id I). }
    { intros id I. cbn [ids] in I. rewrite !in_app_iff in I. destruct I as [I|[I|I]].
      * apply in_flat_map in I. destruct I as [f [F I]]. apply in_map_iff in F. destruct F as [[k f'] [E F]]. cbn [snd] in E. subst f'.
        apply (proj1 (by_key_in _ _)) in F. apply in_map_iff in F. destruct F as [p [E F]]. injection E as <- <-.
        rewrite field_ids in I. pose proof (depth_props ps p F) as DP.
        assert (R : resolved (defs u env (negb inside) (path ++ [fst p]) [] (snd p)) (refs_ref (snd p))
                      (used u env (path ++ [fst p]) [] (snd p))).
        { apply used_resolved. apply IH; [lia|apply HP, F|]. specialize (KP p F). destruct inside; [|exact KP].
          apply (needs_nothing n (snd p)); [lia|exact KP]. }
        revert I. apply (resolved_more _ _ _ _ _ R).
        -- intros d J. apply in_app_iff. left. destruct inside; cbn [negb] in *.
           ++ specialize (KP p F). cbn in KP. destruct (needs_nothing n (snd p)) as [Z _]; [lia|exact KP|].
              rewrite Z in J. destruct J.
           ++ apply (in_by_key_flat (fun p => defs u env true (path ++ [fst p]) [] (snd p)) ps p d F J).
        -- intros r J. apply in_app_iff. left. apply in_flat_map. eauto.
      * destruct (_ || _); [|destruct I]. revert I. apply RE'. intros d Q. rewrite !in_app_iff. tauto.
      * destruct (nonempty _); [|destruct I]. destruct I as [<-|[]]. left. cbn. tauto. }
  - destruct (arraylike b) eqn:A.
    + destruct it as [r|]; [|intros id [<-|[]]; left; cbn; tauto].
      cbn [ids]. intros id I. cbn [ids] in I.
      assert (R : resolved (defs u env (negb inside) path ["Item"] r) (refs_ref r) (used u env path ["Item"] r)).
      { apply used_resolved. apply IH; [lia|exact HI|exact K]. }
      revert I. apply (resolved_more _ _ _ _ _ R); [auto|]. intros q Q. rewrite !in_app_iff. tauto.
    + destruct HT as [HT|[HT|HT]]; try discriminate.
      destruct (scalar (b_type b) (b_format b)) as [g|] eqn:Q; [|congruence].
      intros id I. left. apply (scalar_ids _ _ g Q id I).
Qed.

Definition dty (d : decl) : gty := snd d.

Lemma defs_resolved inside path sfx r :
  resolved (at_ inside path r) (refs_ref r) (ty u env path r) ->
  (forall d, In d (at_ inside path r) -> resolved (at_ inside path r) (refs_ref r) (dty d)) ->
  forall d, In d (defs u env (negb inside) path sfx r) ->
  resolved (defs u env (negb inside) path sfx r) (refs_ref r) (dty d).
Proof.
  intros B H d I. rewrite defs_split in *. fold (at_ inside path r) in *.
  assert (X : resolved (at_ inside path r) (refs_ref r) (dty d)).
  { apply in_app_iff in I. destruct I as [I|I]; [apply H, I|].
    destruct r as [r|s]; [destruct I|]. unfold own in I. destruct (_ && _); [destruct I as [<-|[]]; exact B|].
    destruct (owned (Inl s)); [destruct I as [<-|[]]; exact B|destruct I]. }
  apply (resolved_more _ _ _ _ _ X); [|auto]. intros x Q. apply in_app_iff. left. exact Q.
Qed.

Lemma elements_resolved l path : forall i,
  (forall r, In r l -> simple_ref r /\ needs_ref r = false) ->
  forall d, In d (elements_from u env i path l) -> resolved [] (flat_map refs_ref l) (dty d).
Proof.
  induction l as [|r l IH]; intros i H d I; [destruct I|]. cbn [elements_from] in I. apply in_app_iff in I.
  destruct (H r (or_introl eq_refl)) as [H1 H2]. destruct I as [I|I].
  - destruct r as [r|s]; [destruct I|]. destruct I as [<-|[]]. cbn [dty snd].
    destruct (needs_nothing (depth_ref (Inl s)) (Inl s) (le_n _) H2) as [Z K].
    pose proof (body_resolved (depth_ref (Inl s)) (Inl s) true path (le_n _) H1 (K true)) as R.
    assert (NE : enumlike (s_base s) = false).
    { destruct s as [b ps it ad al an on]. cbn [needs_ref needs] in H2. unfold enumlike. cbn [s_base].
      destruct (objectlike b); [reflexivity|]. destruct (b_enum b); [reflexivity|discriminate]. }
    rewrite NE. cbn [andb].
    specialize (Z false path []). rewrite defs_split in Z. apply app_eq_nil in Z. destruct Z as [Z _].
    unfold at_ in R. cbn [negb] in R. rewrite Z in R. cbn [ty] in R.
    apply (resolved_more _ _ _ _ _ R); [auto|]. intros q Q. cbn [flat_map]. apply in_app_iff. left. exact Q.
  - apply (resolved_more _ _ _ _ _ (IH (S i) (fun q Q => H q (or_intror Q)) d I)); [auto|].
    intros q Q. cbn [flat_map]. apply in_app_iff. right. exact Q.
Qed.

Lemma flat_elements o : flat_map refs_ref (elements o) = match o with None => [] | Some l => flat_map refs_ref l end.
Proof. destruct o; reflexivity. Qed.

Lemma inner_resolved n : forall r inside path, depth_ref r <= n -> simple_ref r -> kept_ref inside r ->
  forall d, In d (at_ inside path r) -> resolved (at_ inside path r) (refs_ref r) (dty d).
Proof.
  induction n as [|n IH]; intros r inside path D S0 K d I; [pose proof (depth_pos r); lia|].
  destruct r as [r|s]; [destruct I|].
  destruct s as [b ps it ad al an on]. cbn [depth_ref depth] in D. cbn [kept_ref kept] in K.
  cbn [simple_ref simple] in S0. destruct S0 as [-> [HAN [HON [HI [HA [HP HT]]]]]]. rewrite simple_props in HP. rewrite simple_elements in HAN, HON.
  unfold at_ in *. cbn [inner_defs refs_ref refs] in *. rewrite defs_in_eq in *. destruct (objectlike b) eqn:O.
  - rewrite kept_props in K. destruct K as [KP [KA KU]]. rewrite !in_app_iff in I. destruct I as [I|[I|[I|I]]].
    + destruct inside; cbn [negb] in *; [destruct I|].
      apply in_flat_map in I. destruct I as [[k ds] [F I]]. cbn [snd] in I. apply (proj1 (by_key_in _ _)) in F. apply in_map_iff in F.
      destruct F as [p [E F]]. injection E as <- <-. pose proof (depth_props ps p F).
      assert (R := defs_resolved false (path ++ [fst p]) [] (snd p)
        (body_resolved n (snd p) false _ ltac:(lia) (HP p F) (KP p F))
        (IH (snd p) false (path ++ [fst p]) ltac:(lia) (HP p F) (KP p F)) d I).
      apply (resolved_more _ _ _ _ _ R).
      * intros x J. rewrite !in_app_iff. left.
        apply (in_by_key_flat (fun p => defs u env true (path ++ [fst p]) [] (snd p)) ps p x F J).
      * intros q J. apply in_app_iff. left. apply in_flat_map. eauto.
    + destruct ad as [r|]; [|destruct I].
      assert (R := defs_resolved true path ["AdditionalProperties"] r
        (body_resolved n r true _ ltac:(lia) HA KA) (IH r true path ltac:(lia) HA KA) d I).
      apply (resolved_more _ _ _ _ _ R).
      * intros x J. rewrite !in_app_iff. right. left. exact J.
      * intros q J. rewrite !in_app_iff. right. right. left. exact J.
    + assert (R := elements_resolved (elements an) path 0
        (fun r J => conj (HAN r J) (KU r (proj2 (in_app_iff _ _ _) (or_introl J)))) d I).
      rewrite flat_elements in R. apply (resolved_more _ _ _ _ _ R); [intros x []|]. intros q J. rewrite !in_app_iff. tauto.
    + assert (R := elements_resolved (elements on) path 0
        (fun r J => conj (HON r J) (KU r (proj2 (in_app_iff _ _ _) (or_intror J)))) d I).
      rewrite flat_elements in R. apply (resolved_more _ _ _ _ _ R); [intros x []|]. intros q J. rewrite !in_app_iff. tauto.
  - destruct (arraylike b) eqn:A; [|destruct I]. destruct it as [r|]; [|destruct I].
    assert (R := defs_resolved inside path ["Item"] r
      (body_resolved n r inside _ ltac:(lia) HI K) (IH r inside path ltac:(lia) HI K) d I).
    apply (resolved_more _ _ _ _ _ R); [auto|].
    intros q J. rewrite !in_app_iff. right. left. exact J.
Qed.

Theorem doc_resolved l : doc_ok l -> (forall p, In p l -> kept_ref false (snd p)) ->
  (forall p r, In p l -> In r (refs_ref (snd p)) -> exists n, r = ref_to n /\ In n (map fst l)) ->
  forall d id, In d (doc_decls l) -> In id (ids (dty d)) ->
  In id builtins \/ In id (dnames (doc_decls l)).
Proof.
  intros H K R d id I J.
  assert (SUB : forall p x, In p l -> In x (inner_defs u env true [fst p] (snd p)) -> In x (doc_decls l)).
  { intros p x Q X. apply in_flat_map. exists p. split; [apply by_key_in, Q|right; exact X]. }
  assert (FIN : forall p ds, In p l -> (forall x, In x ds -> In x (inner_defs u env true [fst p] (snd p))) ->
    resolved ds (refs_ref (snd p)) (dty d) -> In id builtins \/ In id (dnames (doc_decls l))).
  { intros p ds Q S0 RS. destruct (RS id J) as [B|[[q [Q1 ->]]|B]]; [left; exact B| |].
    - right. destruct (R p q Q Q1) as [n [-> N]]. apply in_map_iff in N. destruct N as [p' [<- N]].
      assert (G : good_ref (ref_to (fst p'))).
      { destruct (H p Q) as [_ S1]. clear - S1 Q1. revert S1 Q1. generalize (ref_to (fst p')) as q.
        intros q. generalize (snd p). intros r S1 Q1.
        assert (X : forall n r, depth_ref r <= n -> simple_ref r -> In q (refs_ref r) -> good_ref q).
        { clear. induction n as [|n IH]; intros r D S1 I; [pose proof (depth_pos r); lia|].
          destruct r as [r|[b ps it ad al an on]]; [destruct I as [<-|[]]; exact S1|].
          cbn [depth_ref depth] in D. cbn [simple_ref simple] in S1. destruct S1 as [_ [HAN [HON [HI [HA [HP _]]]]]].
          rewrite simple_props in HP. rewrite simple_elements in HAN, HON. cbn [refs_ref refs] in I. rewrite !in_app_iff in I.
          destruct I as [I|[I|[I|[I|I]]]].
          - apply in_flat_map in I. destruct I as [p [P I]]. pose proof (depth_props ps p P).
            apply (IH (snd p)); [lia|apply HP, P|exact I].
          - destruct it as [r|]; [|destruct I]. apply (IH r); [lia|exact HI|exact I].
          - destruct ad as [r|]; [|destruct I]. apply (IH r); [lia|exact HA|exact I].
          - rewrite <- flat_elements in I. apply in_flat_map in I. destruct I as [r [P I]].
            pose proof (depth_union an r P). apply (IH r); [lia|apply HAN, P|exact I].
          - rewrite <- flat_elements in I. apply in_flat_map in I. destruct I as [r [P I]].
            pose proof (depth_union on r P). apply (IH r); [lia|apply HON, P|exact I]. }
        apply (X (depth_ref r) r); auto. }
      destruct G as [n' [E [_ C]]]. unfold ref_to in E. apply app_inj_l in E. rewrite <- E in C.
      rewrite (ref_name_of u (fst p') C). apply in_map_iff. eexists. split; [|apply in_flat_map; exists p'; split; [apply by_key_in, N|left; reflexivity]].
      reflexivity.
    - right. apply in_map_iff in B. destruct B as [x [E B]]. apply in_map_iff. exists x. split; [exact E|].
      apply (SUB p x Q). apply S0, B. }
  unfold doc_decls in I. apply in_flat_map in I. destruct I as [p [P I]]. rewrite by_key_in in P.
  destruct (H p P) as [H1 H2]. destruct I as [<-|I].
  - apply (FIN p (inner_defs u env true [fst p] (snd p)) P); [auto|].
    apply (body_resolved (depth_ref (snd p)) (snd p) false [fst p]); [lia|exact H2|apply K, P].
  - apply (FIN p (inner_defs u env true [fst p] (snd p)) P); [auto|].
    apply (inner_resolved (depth_ref (snd p)) (snd p) false [fst p]); [lia|exact H2|apply K, P|exact I].
Qed.
End Doc.
