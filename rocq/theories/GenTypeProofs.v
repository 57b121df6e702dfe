(** Proofs about GenType.v: the types of schemas without [allOf] are those of
    GenTypeSpec.v. *)
From Verif Require Import Prelude Strings Version Util UtilProofs GenName GenNameProofs GenSpellProofs
  GenCommentProofs GenType GenTypeSpec.
Local Open Scope string_scope.
Local Open Scope list_scope.

(** *** Sorting *)

Lemma insert_map {A B} (f : string * A -> B) (x : string * A) l :
  insert (fst x, f x) (map (fun p => (fst p, f p)) l) = map (fun p => (fst p, f p)) (insert x l).
Proof.
  induction l as [|y r IH]; [reflexivity|]. cbn [map insert fst]. destruct (str_leb (fst x) (fst y)); [reflexivity|].
  cbn [map]. rewrite IH. reflexivity.
Qed.

Lemma by_key_map {A B} (f : string * A -> B) l :
  by_key (map (fun p => (fst p, f p)) l) = map (fun p => (fst p, f p)) (by_key l).
Proof.
  induction l as [|x r IH]; [reflexivity|]. cbn [map]. unfold by_key in *. cbn [fold_right]. rewrite IH. apply insert_map.
Qed.

Lemma insert_in {A} (x y : string * A) l : In y (insert x l) <-> y = x \/ In y l.
Proof.
  induction l as [|z r IH]; cbn [insert]; [cbn; intuition|].
  destruct (str_leb (fst x) (fst z)); cbn [In]; [intuition|]. rewrite IH. intuition.
Qed.
Lemma by_key_in {A} (y : string * A) l : In y (by_key l) <-> In y l.
Proof.
  induction l as [|x r IH]; [tauto|]. unfold by_key in *. cbn [fold_right]. rewrite insert_in, IH. cbn. intuition.
Qed.
Lemma by_key_nil {A} (l : list (string * A)) : by_key l = [] -> l = [].
Proof.
  destruct l as [|x r]; [reflexivity|]. intros H. assert (I : In x (by_key (x :: r))) by (apply by_key_in; left; reflexivity).
  rewrite H in I. destruct I.
Qed.

(** *** Names are not empty *)

Section Facts.
Variable u : unicode.

Lemma letter_ascii c : letterc c = true -> is_ascii c = true.
Proof. intros H. apply alnum_ascii. unfold alnum, letterc in *. rewrite H. reflexivity. Qed.

Lemma runes_letter c r : letterc c = true -> runes (String c r) = N_of_ascii c :: runes r.
Proof.
  intros H. apply letter_ascii in H. unfold is_ascii in H. apply N.ltb_lt in H. unfold runes. cbn [runes_from].
  rewrite (decode_ascii c r H). reflexivity.
Qed.

Lemma camel_first n : letter_first n = true -> letter_first (toCamelCase u n) = true.
Proof.
  destruct n as [|c r]; [discriminate|]. cbn [letter_first]. intros H. unfold toCamelCase.
  destruct (trim_letter c r H) as [t ->]. rewrite (runes_letter c t H).
  pose proof (letter_ascii c H) as A. destruct (ascii_small u c A) as [U [L [D T]]].
  cbn [camel]. rewrite U, L, D, T. unfold letterc in H.
  assert (S0 : (N_of_ascii c < 128)%N) by (apply N.ltb_lt; exact A).
  assert (S1 : (N_of_ascii (upc c) < 128)%N) by (apply N.ltb_lt, upc_ascii; exact A).
  destruct (upperc c) eqn:EU.
  - cbn [app encode]. rewrite encode_small, ascii_N_embedding by exact S0. cbn [append letter_first].
    unfold letterc. rewrite EU. reflexivity.
  - cbn [orb] in H. assert (ED : digitc c = false).
    { destruct (digitc c) eqn:ED; [|reflexivity]. unfold digitc, lowerc, a_digit, a_lower in *.
      apply within_iff in H, ED. lia. }
    rewrite ED, H. cbn [app encode]. rewrite encode_small, ascii_N_embedding by exact S1.
    cbn [append letter_first]. unfold letterc. rewrite (upc_upper c H). reflexivity.
Qed.

Lemma first_app a b : letter_first a = true -> letter_first (a ++ b) = true.
Proof. destruct a; [discriminate|exact (fun H => H)]. Qed.
Lemma first_ne a : letter_first a = true -> a <> "".
Proof. intros H ->. discriminate. Qed.

Definition path_ok (path : list string) : Prop :=
  match path with n :: _ => letter_first n = true | [] => False end.

Lemma path_app path sfx : path_ok path -> path_ok (path ++ sfx).
Proof. destruct path; [intros []|exact (fun H => H)]. Qed.

Lemma path_first path : path_ok path -> letter_first (pathToTypeName u path) = true.
Proof.
  destruct path as [|n r]; [intros []|]. intros H. unfold pathToTypeName. cbn [map].
  pose proof (camel_first n H) as F. destruct r as [|m r]; [exact F|]. cbn [map String.concat]. apply first_app, F.
Qed.

Lemma type_name_ne n : letter_first n = true -> schemaNameToTypeName u n <> "".
Proof.
  intros H. apply camel_first, first_ne in H. unfold schemaNameToTypeName.
  destruct (typeNamePrefix u n); [exact H|discriminate].
Qed.
Lemma enum_name_ne path : path_ok path -> enum_name u path <> "".
Proof. intros H. apply type_name_ne, path_first, H. Qed.

(** *** References *)

Lemma slash_free n : contains n "/" = false -> split_str n "/" = [n].
Proof.
  induction n as [|c r IH]; [reflexivity|]. intros H. cbn [contains] in H. apply orb_false_iff in H. destruct H as [H1 H2].
  unfold split_str in *. cbn [split_aux]. rewrite H1, (IH H2). reflexivity.
Qed.

Lemma prefix_slash c r : String.prefix "/" (String c r) = Ascii.eqb "/" c.
Proof.
  cbn [String.prefix]. destruct (ascii_dec "/" c) as [<-|N]; [destruct r; reflexivity|].
  symmetry. apply Ascii.eqb_neq. exact N.
Qed.

Lemma slash_first a b : contains a "/" = false -> split_str (a ++ String "/" b) "/" = a :: split_str b "/".
Proof.
  unfold split_str. induction a as [|c r IH]; intros H.
  - cbn [append split_aux]. rewrite prefix_slash. reflexivity.
  - cbn [contains] in H. apply orb_false_iff in H. destruct H as [H1 H2]. cbn [append split_aux].
    rewrite prefix_slash in *. rewrite H1, (IH H2). reflexivity.
Qed.

Lemma split_ref n : contains n "/" = false ->
  split_str (ref_to n) "/" = ["#"; "components"; "schemas"; n].
Proof.
  intros H. unfold ref_to.
  change ("#/components/schemas/" ++ n)%string with ("#" ++ String "/" ("components" ++ String "/" ("schemas" ++ String "/" n)))%string.
  rewrite !slash_first, slash_free by (exact H || reflexivity). reflexivity.
Qed.

Lemma ref_name_of n : contains n "/" = false -> ref_name u (ref_to n) = schemaNameToTypeName u n.
Proof. intros H. unfold ref_name. rewrite (split_ref n H). reflexivity. Qed.

Lemma good_ref_go r : good_ref r ->
  isGoTypeReference r = true /\ refPathToGoType u r = Ok (ref_name u r) /\ ref_name u r <> "".
Proof.
  intros [n [-> [L C]]]. rewrite (ref_name_of n C). split; [reflexivity|]. split; [|apply type_name_ne, L].
  unfold refPathToGoType. rewrite (split_ref n C). reflexivity.
Qed.

(** *** Text *)

(** Whether a type has additional properties and whether it is a union: what
    methods are generated for. *)
Definition methods (t : gty) : bool * bool :=
  match t with
  | GStruct _ addl un => (match addl with Some _ => true | None => false end, un)
  | _ => (false, false)
  end.

Definition view (d : string * string * gsch)
  : string * string * string * bool * list (string * string) * string * string * (bool * bool) :=
  (fst (fst d), snd (fst d), g_desc (snd d), g_alias (snd d), g_enum (snd d), g_type (snd d), typeDecl (snd d),
   (g_has (snd d), nonempty (g_union (snd d)))).
(** The type a name stands for. *)
Fixpoint under (t : gty) : gty := match t with GAs _ t => under t | _ => t end.
Definition sview (d : decl)
  : string * string * string * bool * list (string * string) * string * string * (bool * bool) :=
  let '(n, j, d, a, c, t) := d in (n, j, d, a, c, render (under t), render t, methods t).

Lemma scalar_methods t f g : scalar t f = Some g -> methods g = (false, false).
Proof.
  unfold scalar, formats. intros H.
  repeat match type of H with context [if ?c then _ else _] => destruct c; cbn [map lookup] in H end;
    try discriminate; injection H as <-; reflexivity.
Qed.

Lemma under_body env path s : under (body u env path s) = body u env path s.
Proof.
  destruct s as [b ps it ad al an on]. cbn [body]. destruct (objectlike b).
  - destruct (nonempty ps || has_list an || has_list on); [reflexivity|].
    destruct (b_has b || _); [reflexivity|]. destruct (String.eqb (b_type b) "object"); reflexivity.
  - destruct (arraylike b); [reflexivity|]. destruct (scalar (b_type b) (b_format b)) as [g|] eqn:E; [|reflexivity].
    revert E. unfold scalar, formats.
    repeat match goal with |- context [if ?c then _ else _] => destruct c; cbn [map lookup] end;
      intros H; try discriminate; injection H as <-; reflexivity.
Qed.

Lemma under_not t n x : under t <> GAs n x.
Proof. induction t; cbn [under]; congruence. Qed.
Lemma body_not_as env path s n x : body u env path s <> GAs n x.
Proof. rewrite <- under_body. apply under_not. Qed.

Lemma body_methods env path s :
  methods (body u env path s) = (structlike s && more_of s, structlike s && union_of s).
Proof.
  destruct s as [b ps it ad al an on]. cbn [body]. unfold structlike, more_of, union_of. cbn [s_base s_props s_anyOf s_oneOf s_addl].
  destruct (objectlike b); cbn [andb].
  - destruct (nonempty ps || has_list an || has_list on); cbn [methods andb].
    + destruct (b_has b || _); reflexivity.
    + destruct (b_has b || _); [reflexivity|]. destruct (String.eqb (b_type b) "object"); reflexivity.
  - destruct (arraylike b); [reflexivity|]. destruct (scalar (b_type b) (b_format b)) as [g|] eqn:E; [|reflexivity].
    apply (scalar_methods _ _ _ E).
Qed.

Definition ty (env : string -> schema) (path : list string) (r : sref) : gty :=
  match r with Ref r => GId (ref_name u r) | Inl s => body u env path s end.
Definition enum_own (env : string -> schema) (path : list string) (r : sref) : list decl :=
  if enum_of r && Nat.ltb 1 (length path) then own u env path [] r else [].
Definition inner_defs (env : string -> schema) (whole : bool) (path : list string) (r : sref) : list decl :=
  match r with Ref _ => [] | Inl s => defs_in u env whole path s end.

Record good (env : string -> schema) (path : list string) (r : sref) (g : gsch) : Prop := {
  g1 : g_type g = render (ty env path r);
  g2 : g_has g = match r with Inl s => structlike s && more_of s | Ref _ => false end;
  g3 : nonempty (g_union g) = match r with Inl s => structlike s && union_of s | Ref _ => false end;
  g4 : g_ref g = if enum_of r && Nat.ltb 1 (length path) then enum_name u path else "";
  g5 : g_skip g = skips r;
  g6 : g_desc g = b_desc (s_base (value env r));
  g7 : g_alias g = alias_of r;
  g8 : map view (g_types g) = map sview (inner_defs env false path r ++ enum_own env path r);
  g9 : map view (additionalTypeDefs g) = map sview (inner_defs env true path r ++ enum_own env path r);
  g10 : g_enum g = match r with Inl s => constants u (s_base s) | Ref _ => [] end
}.

Record good_use (env : string -> schema) (path sfx : list string) (r : sref) (g : gsch) : Prop := {
  u1 : typeDecl g = render (used u env path sfx r);
  u5 : g_skip g = skips r;
  u8 : map view (g_types g) = map sview (defs u env false path sfx r);
  u9 : map view (additionalTypeDefs g) = map sview (defs u env true path sfx r)
}.

Lemma owned_not_enum r : owned r = true -> enum_of r = false.
Proof.
  destruct r as [r|s]; [discriminate|]. cbn [owned enum_of]. unfold structlike, enumlike.
  intros H. apply andb_true_iff in H. destruct H as [H _]. apply andb_true_iff in H. destruct H as [-> _]. reflexivity.
Qed.

Lemma additional_named n td g : additionalTypeDefs (named n td g) = additionalTypeDefs g ++ [td].
Proof. destruct g. cbn [named additionalTypeDefs]. rewrite app_assoc. reflexivity. Qed.
Lemma types_named n td g : g_types (named n td g) = g_types g ++ [td].
Proof. destruct g. reflexivity. Qed.
Lemma decl_named n td g : n <> "" -> typeDecl (named n td g) = n.
Proof. destruct g. intros H. unfold typeDecl. cbn [named g_ref]. destruct (String.eqb_spec n ""); [congruence|reflexivity]. Qed.
Lemma skip_named n td g : g_skip (named n td g) = g_skip g.
Proof. destruct g. reflexivity. Qed.

Lemma defs_split env whole path sfx r :
  defs u env whole path sfx r = inner_defs env whole path r ++ own u env path sfx r.
Proof. destruct r; reflexivity. Qed.

(** A schema where it is used; the [named] of the model for items, properties and
    additional properties is the same. *)
Lemma use_good env path sfx r g : path_ok path -> good env path r g ->
  good_use env path sfx r (own_type u (path ++ sfx) g) /\
  own_type u (path ++ sfx) g =
    (if g_has g || match g_union g with [] => false | _ => true end
     then named (pathToTypeName u (path ++ sfx)) (pathToTypeName u (path ++ sfx), dotted u (path ++ sfx), g) g
     else g).
Proof.
  intros P [G1 G2 G3 G4 G5 G6 G7 G8 G9 G10]. unfold own_type.
  assert (G23 : g_has g || match g_union g with [] => false | _ => true end = owned r).
  { change (match g_union g with [] => false | _ => true end) with (nonempty (g_union g)). rewrite G2, G3.
    destruct r as [r|s]; [reflexivity|]. cbn [owned]. destruct (structlike s); reflexivity. }
  rewrite G23. destruct (owned r) eqn:O.
  - pose proof (owned_not_enum r O) as E. rewrite E in G4. cbn [andb] in G4. rewrite G4. cbn [andb String.eqb].
    split; [|reflexivity].
    assert (N : pathToTypeName u (path ++ sfx) <> "") by (apply first_ne, path_first, path_app, P).
    destruct r as [r|s]; [discriminate|]. cbn [enum_of] in E.
    assert (V : sview (pathToTypeName u (path ++ sfx), dotted u (path ++ sfx), b_desc (s_base s), false, constants u (s_base s), body u env path s)
                = view (pathToTypeName u (path ++ sfx), dotted u (path ++ sfx), g)).
    { unfold view, sview, typeDecl. cbn [fst snd]. rewrite ?under_body, body_methods, G1, G2, G3, G4, G6, G7, G10. cbn [String.eqb value ty].
      unfold alias_of. cbn [owned] in O. apply andb_true_iff in O. destruct O as [O _]. rewrite O.
      unfold structlike in O. apply andb_true_iff in O. destruct O as [-> _]. reflexivity. }
    constructor.
    + rewrite (decl_named _ _ _ N). cbn [used]. rewrite E, O. reflexivity.
    + rewrite skip_named. exact G5.
    + rewrite types_named, defs_split, !map_app, G8. unfold enum_own. cbn [enum_of]. rewrite E. cbn [andb]. rewrite app_nil_r.
      f_equal. unfold own. rewrite E, O. cbn [andb map]. rewrite V. reflexivity.
    + rewrite additional_named, defs_split, !map_app, G9. unfold enum_own. cbn [enum_of]. rewrite E. cbn [andb]. rewrite app_nil_r.
      f_equal. unfold own. rewrite E, O. cbn [andb map]. rewrite V. reflexivity.
  - split; [|reflexivity]. cbn [andb].
    assert (EO : own u env path sfx r = enum_own env path r).
    { unfold enum_own, own. destruct r as [r|s]; [reflexivity|]. cbn [enum_of].
      destruct (enumlike (s_base s) && Nat.ltb 1 (length path)); [reflexivity|]. rewrite O. reflexivity. }
    constructor.
    + unfold typeDecl. rewrite G4. destruct r as [r|s]; cbn [enum_of andb String.eqb used]; [exact G1|].
      destruct (enumlike (s_base s) && Nat.ltb 1 (length path)) eqn:Q.
      * pose proof (enum_name_ne path P) as N. destruct (String.eqb_spec (enum_name u path) ""); [congruence|reflexivity].
      * rewrite O. exact G1.
    + exact G5.
    + rewrite defs_split, EO. exact G8.
    + rewrite defs_split, EO. exact G9.
Qed.

(** *** Scalars *)

Lemma scalar_type env gen s path g :
  objectlike (s_base s) = false -> arraylike (s_base s) = false ->
  scalar (b_type (s_base s)) (b_format (s_base s)) = Some g ->
  oapiSchemaToGoType u gen s path = Ok (render g, skips (Inl s), [], [], true) /\ render g <> "" /\
  body u env path s = g.
Proof.
  intros O A H.
  assert (B : body u env path s = g).
  { destruct s as [b ps it ad al an on]. cbn [s_base] in *. cbn [body]. rewrite O, A, H. reflexivity. }
  rewrite B. clear B. destruct s as [b ps it ad al an on]. cbn [s_base] in *. unfold oapiSchemaToGoType, skips. cbn [s_base].
  unfold arraylike in A. rewrite A. unfold scalar, formats in H.
  revert H. generalize (b_format b) (b_type b). intros f t H.
  destruct (String.eqb_spec t "integer") as [E|N1]; [subst t|].
  - cbn [String.eqb Ascii.eqb Bool.eqb andb]. unfold int_type. cbn [map lookup existsb] in *.
    repeat match goal with |- context [String.eqb f ?x] => destruct (String.eqb_spec f x); [subst f; injection H as <-; repeat split; discriminate|] end.
    injection H as <-. repeat split; discriminate.
  - destruct (String.eqb_spec t "number") as [E|N2]; [subst t|].
    { cbn [String.eqb Ascii.eqb Bool.eqb andb lookup] in *.
      destruct (String.eqb f "double"); [injection H as <-; repeat split; discriminate|].
      destruct (String.eqb f "float"); [injection H as <-; repeat split; discriminate|].
      destruct (String.eqb f ""); [injection H as <-; repeat split; discriminate|discriminate]. }
    destruct (String.eqb_spec t "boolean") as [E|N3]; [subst t|].
    { cbn [String.eqb Ascii.eqb Bool.eqb andb lookup] in *.
      destruct (String.eqb f ""); [injection H as <-; repeat split; discriminate|discriminate]. }
    destruct (String.eqb_spec t "string") as [E|N4]; [subst t|discriminate].
    cbn [andb]. unfold string_type. cbn [lookup] in H.
    repeat match goal with
           | |- context [String.eqb f ?x] =>
               destruct (String.eqb_spec f x); [subst f; cbn in H; injection H as <-; repeat split; discriminate|]
           end.
    repeat match type of H with
           | context [String.eqb f ?x] => destruct (String.eqb_spec f x); [congruence|]
           end.
    injection H as <-. repeat split; discriminate.
Qed.

(** *** Fields *)

Lemma deprecated_text : deprecationComment "" = "// Deprecated:".
Proof. vm_compute. reflexivity. Qed.

Definition pinfo_of (env : string -> schema) (required : list string) (n : string) (r : sref) : pinfo :=
  let b := s_base (value env r) in
  mkP n (b_desc b) (existsb (String.eqb n) required) (b_nullable b) (b_readonly b) (b_writeonly b) (b_deprecated b).

Lemma field_text env required n r t g first :
  typeDecl g = render t -> render t <> "" -> g_skip g = skips r ->
  genField u first (pinfo_of env required n r, g) =
  render_field first (fst (field_of u env required n r t)) (render (snd (field_of u env required n r t))).
Proof.
  intros D N S0. unfold genField, pinfo_of, field_of, render_field. cbn [p_name p_desc p_dep fst snd f_name f_doc f_dep f_tag].
  set (b := s_base (value env r)). set (req := existsb (String.eqb n) required).
  rewrite deprecated_text.
  assert (E : goTypeDef (mkP n (b_desc b) req (b_nullable b) (b_readonly b) (b_writeonly b) (b_deprecated b)) g
              = render (if is_optional req b && negb (skips r) then GPtr t else t)).
  { unfold goTypeDef, is_optional. cbn [p_req p_null p_ro p_wo]. rewrite D, S0.
    rewrite (andb_comm (negb (skips r))). destruct (_ && _); [|reflexivity].
    destruct (String.eqb_spec (render t) ""); [congruence|reflexivity]. }
  rewrite E.
  assert (T : tag_of (mkP n (b_desc b) req (b_nullable b) (b_readonly b) (b_writeonly b) (b_deprecated b)) g
              = Some (json_tag n req b)).
  { unfold tag_of, json_tag. cbn [p_req p_ro p_wo p_null p_name]. destruct (_ || _); [reflexivity|].
    rewrite E. destruct (_ && _); [reflexivity|]. destruct (String.eqb_spec (render t) ""); [congruence|reflexivity]. }
  rewrite T. reflexivity.
Qed.

(** *** Schemas *)

Lemma simple_props l :
  (fix go (l : list (string * sref)) : Prop :=
     match l with [] => True | p :: r => simple_ref (snd p) /\ go r end) l <->
  forall p, In p l -> simple_ref (snd p).
Proof.
  induction l as [|p r IH]; [split; [intros _ q []|exact (fun _ => I)]|]. rewrite IH. split.
  - intros [H1 H2] q [<-|Q]; auto.
  - intros H. split; [apply H; left; reflexivity|]. intros q Q. apply H. right. exact Q.
Qed.

Lemma depth_props (l : list (string * sref)) p : In p l ->
  depth_ref (snd p) <= fold_right (fun p m => Nat.max (depth_ref (snd p)) m) 1 l.
Proof.
  induction l as [|q r IH]; [intros []|]. intros [->|H]; cbn [fold_right]; [lia|]. specialize (IH H). lia.
Qed.

Definition simple_union (o : option (list sref)) : Prop :=
  forall r, In r (elements o) -> simple_ref r.
Lemma simple_elements o :
  match o with
  | None => True
  | Some l => (fix go (l : list sref) : Prop :=
      match l with [] => True | r :: l => simple_ref r /\ go l end) l
  end <-> simple_union o.
Proof.
  unfold simple_union. destruct o as [l|]; cbn [elements]; [|split; [intros _ r []|exact (fun _ => I)]].
  induction l as [|p r IH]; [split; [intros _ q []|exact (fun _ => I)]|]. rewrite IH. split.
  - intros [H1 H2] q [<-|Q]; auto.
  - intros H. split; [apply H; left; reflexivity|]. intros q Q. apply H. right. exact Q.
Qed.

Lemma depth_elements (l : list sref) r : In r l ->
  depth_ref r <= fold_right (fun r m => Nat.max (depth_ref r) m) 1 l.
Proof.
  induction l as [|q l IH]; [intros []|]. intros [->|H]; cbn [fold_right]; [lia|]. specialize (IH H). lia.
Qed.
Lemma depth_union o r : In r (elements o) ->
  depth_ref r <= match o with None => 1 | Some l => fold_right (fun r m => Nat.max (depth_ref r) m) 1 l end.
Proof. destruct o as [l|]; [apply depth_elements|intros []]. Qed.

Lemma depth_pos r : 1 <= depth_ref r.
Proof. destruct r as [r|[b ps it ad al an on]]; cbn [depth_ref depth]; lia. Qed.

Lemma concat_ne x l : x <> "" -> String.concat newline (x :: l) <> "".
Proof. destruct x; [congruence|]. intros _. destruct l; discriminate. Qed.

Lemma use_ne env path sfx r : path_ok path -> simple_ref r -> render (used u env path sfx r) <> "".
Proof.
  intros P H. destruct r as [r|s]; cbn [used].
  - cbn [simple_ref] in H. apply (good_ref_go r H).
  - destruct (_ && _); [apply enum_name_ne, P|].
    destruct (owned (Inl s)); [apply first_ne, path_first, path_app, P|].
    destruct s as [b ps it ad al an on]. cbn [simple_ref simple] in H. destruct H as [_ [_ [_ [_ [_ [_ H]]]]]].
    cbn [body]. destruct (objectlike b) eqn:O.
    + destruct (nonempty ps || _ || _); [cbn [render]; apply concat_ne; discriminate|].
      destruct (_ || _); [discriminate|]. destruct (String.eqb (b_type b) "object"); discriminate.
    + destruct (arraylike b) eqn:A; [discriminate|]. destruct H as [H|[H|H]]; try discriminate.
      destruct (scalar (b_type b) (b_format b)) as [g|] eqn:Q; [|congruence].
      destruct (scalar_type env (fun _ _ => OutOfFuel) (Sch b ps it ad al an on) path g O A Q) as [_ [N _]]. exact N.
Qed.

Section Props.
Variable env : string -> schema.
Variable n : nat.
Variable path : list string.
Hypothesis P : path_ok path.
Variable required : list string.
Hypothesis IH : forall r path, path_ok path -> simple_ref r -> depth_ref r <= n ->
  exists g, generateGoSchema u env n (Some r) path = Ok g /\ good env path r g.

Definition prop_ok (p : string * sref) (pg : pinfo * gsch) : Prop :=
  fst pg = pinfo_of env required (fst p) (snd p) /\ good_use env (path ++ [fst p]) [] (snd p) (snd pg).

Lemma props_good ps : (forall p, In p ps -> simple_ref (snd p) /\ depth_ref (snd p) <= n) ->
  exists gs, gen_props u env (generateGoSchema u env n) required path ps = Ok gs /\ Forall2 prop_ok ps gs.
Proof.
  induction ps as [|[m r] ps IHp]; intros H; [exists []; split; [reflexivity|constructor]|].
  destruct (H (m, r) (or_introl eq_refl)) as [H1 H2]. cbn [snd] in *.
  destruct (IH r (path ++ [m]) (path_app _ _ P) H1 H2) as [g [E G]].
  destruct IHp as [gs [E' F]]; [intros p Q; apply H; right; exact Q|].
  cbn [gen_props]. rewrite E. cbn [because bind]. rewrite E'. cbn [bind].
  eexists. split; [reflexivity|]. constructor; [|exact F]. split; [reflexivity|]. cbn [fst snd].
  destruct (use_good env (path ++ [m]) [] r g (path_app _ _ P) G) as [U _]. rewrite app_nil_r in U. exact U.
Qed.

Definition fields_of (ps : list (string * sref)) : list (fld * gty) :=
  map (fun p => field_of u env required (fst p) (snd p) (used u env (path ++ [fst p]) [] (snd p))) ps.

Lemma fields_text ps gs : (forall p, In p ps -> simple_ref (snd p)) -> Forall2 prop_ok ps gs ->
  genFields u gs =
  match fields_of ps with
  | [] => []
  | f :: r => render_field true (fst f) (render (snd f))
              :: map (fun f => render_field false (fst f) (render (snd f))) r
  end.
Proof.
  intros S0 F.
  assert (X : forall p pg first, simple_ref (snd p) -> prop_ok p pg ->
    genField u first pg =
    let f := field_of u env required (fst p) (snd p) (used u env (path ++ [fst p]) [] (snd p)) in
    render_field first (fst f) (render (snd f))).
  { intros p [i g] first Q [E [U1 U5 _ _]]. cbn [fst snd] in *. subst i.
    apply field_text; [exact U1|apply use_ne; [apply path_app, P|exact Q]|exact U5]. }
  destruct F as [|p pg ps gs Q F]; [reflexivity|]. cbn [genFields fields_of map].
  rewrite (X p pg true (S0 p (or_introl eq_refl)) Q). cbv zeta. f_equal.
  assert (S1 : forall p, In p ps -> simple_ref (snd p)) by (intros q I; apply S0; right; exact I). clear S0 Q.
  induction F as [|q qg ps gs Q F IHF]; [reflexivity|]. cbn [map].
  rewrite (X q qg false (S1 q (or_introl eq_refl)) Q). cbv zeta. f_equal.
  apply IHF. intros q' I. apply S1. right. exact I.
Qed.

Lemma fields_defs ps gs : Forall2 prop_ok ps gs ->
  map view (flat_map (fun p => additionalTypeDefs (snd p)) gs) =
  map sview (flat_map snd (map (fun p => (fst p, defs u env true (path ++ [fst p]) [] (snd p))) ps)).
Proof.
  intros F. induction F as [|p pg ps gs [_ [_ _ _ U9]] F IHF]; [reflexivity|].
  cbn [flat_map map snd]. rewrite !map_app, U9, IHF. reflexivity.
Qed.

Lemma elements_good l : forall i, (forall r, In r l -> simple_ref r /\ depth_ref r <= n) ->
  exists ts us, gen_union u (generateGoSchema u env n) i path l = Ok (ts, us) /\
    map view ts = map sview (elements_from u env i path l) /\ nonempty us = nonempty l.
Proof.
  induction l as [|r l IHl]; intros i H; [exists [], []; repeat split|].
  destruct (H r (or_introl eq_refl)) as [H2 H3].
  destruct (IH r path P H2 H3) as [g [E G]].
  destruct (IHl (S i)) as [ts [us [E' [T U]]]]; [intros q Q; apply H; right; exact Q|].
  cbn [gen_union]. rewrite E. cbn [bind]. rewrite E'. cbn [bind fst snd].
  destruct r as [r|s]; cbn [ref_of].
  - cbn [simple_ref] in H2. destruct (String.eqb_spec r "") as [->|_].
    { destruct H2 as [m [Q _]]. discriminate. }
    exists ts. eexists. split; [reflexivity|]. split; [exact T|reflexivity].
  - cbn [String.eqb]. eexists. eexists. split; [reflexivity|]. split; [|reflexivity].
    cbn [elements_from element app map]. rewrite T. f_equal.
    destruct G as [G1 G2 G3 G4 G5 G6 G7 G8 G9 G10]. cbn [enum_of] in G4.
    unfold view, sview, typeDecl. cbn [fst snd]. rewrite G4, G6, G7, G10. cbn [value].
    destruct (enumlike (s_base s) && Nat.ltb 1 (length path)) eqn:EN; cbn [String.eqb].
    + pose proof (enum_name_ne path P) as NE. destruct (String.eqb_spec (enum_name u path) ""); [contradiction|].
      cbn [under render methods]. rewrite under_body. apply andb_true_iff in EN. destruct EN as [EN _].
      unfold enumlike in EN. apply andb_true_iff in EN. destruct EN as [EN _]. apply negb_true_iff in EN.
      rewrite G1, G2, G3. unfold structlike. rewrite EN. reflexivity.
    + rewrite ?under_body, body_methods, G1, G2, G3. reflexivity.
Qed.

Lemma union_good t o : (forall r, In r (elements o) -> simple_ref r /\ depth_ref r <= n) ->
  exists ts us, gen_union_opt u (generateGoSchema u env n) t path o = Ok (ts, us) /\
    map view ts = map sview (elements_from u env 0 path (elements o)) /\ nonempty us = nonempty (elements o).
Proof.
  destruct o as [l|]; cbn [elements gen_union_opt]; intros H; [|exists [], []; repeat split].
  destruct (elements_good l 0 H) as [ts [us [E R]]]. rewrite E. exists ts, us. split; [reflexivity|exact R].
Qed.
End Props.

Lemma nonempty_app {A} (a b : list A) : nonempty (a ++ b) = nonempty a || nonempty b.
Proof. destruct a; reflexivity. Qed.

Lemma by_key_ne {A} (x : string * A) l : exists y r, by_key (x :: l) = y :: r.
Proof.
  destruct (by_key (x :: l)) as [|y r] eqn:E; [apply by_key_nil in E; discriminate|]. eauto.
Qed.

Theorem gen_good env : forall n r path, path_ok path -> simple_ref r -> depth_ref r <= n ->
  exists g, generateGoSchema u env n (Some r) path = Ok g /\ good env path r g.
Proof.
  induction n as [|n IH]; intros r path P H D; [pose proof (depth_pos r); lia|].
  destruct r as [r|s].
  { cbn [simple_ref] in H. destruct (good_ref_go r H) as [R1 [R2 R3]]. cbn [generateGoSchema ref_of]. rewrite R1, R2.
    cbn [because_s bind]. eexists. split; [reflexivity|]. constructor; reflexivity. }
  cbn [generateGoSchema ref_of value]. unfold isGoTypeReference at 1. cbn [String.eqb negb andb].
  destruct s as [b ps it ad al an on]. cbn [simple_ref simple] in H.
  destruct H as [-> [HAN [HON [HI [HA [HP HT]]]]]]. rewrite simple_props in HP. rewrite simple_elements in HAN, HON.
  cbn [depth_ref depth] in D.
  unfold gen_schema. cbn [s_base s_allOf s_props bind].
  change (String.eqb (b_type b) "" || String.eqb (b_type b) "object") with (objectlike b).
  destruct (objectlike b) eqn:O.
  - unfold gen_object. cbn [s_base s_anyOf s_oneOf s_addl]. unfold hasAdditional. cbn [s_base s_addl].
    set (S0 := Sch b ps it ad None an on).
    set (st := nonempty ps || has_list an || has_list on).
    assert (EN : match ps, an, on with [], None, None => true | _, _, _ => false end = negb st).
    { unfold st. destruct ps, an, on; reflexivity. }
    assert (SL : structlike S0 = st) by (unfold structlike, S0; cbn [s_base s_props s_anyOf s_oneOf]; rewrite O; reflexivity).
    set (more := b_has b || match ad with Some _ => true | None => false end).
    set (elem := match ad with None => GId "any" | Some r => used u env path ["AdditionalProperties"] r end).
    assert (NE : enumlike b = false) by (unfold enumlike; rewrite O; reflexivity).
    assert (NS : skips (Inl S0) = false).
    { unfold skips, S0. cbn [s_base]. unfold objectlike in O. destruct (String.eqb_spec (b_type b) "string") as [E|]; [|reflexivity].
      rewrite E in O. discriminate. }
    assert (AX : exists ax, (match ad with
       | None => Ok ("any", [])
       | Some r =>
           a <- because "error generating type for additional properties: " (generateGoSchema u env n (Some r) path);;
           Ok (typeDecl (if g_has a || match g_union a with [] => false | _ => true end
                         then named (pathToTypeName u (path ++ ["AdditionalProperties"]))
                                (pathToTypeName u (path ++ ["AdditionalProperties"]), dotted u (path ++ ["AdditionalProperties"]), a) a
                         else a),
               g_types (if g_has a || match g_union a with [] => false | _ => true end
                         then named (pathToTypeName u (path ++ ["AdditionalProperties"]))
                                (pathToTypeName u (path ++ ["AdditionalProperties"]), dotted u (path ++ ["AdditionalProperties"]), a) a
                         else a))
       end) = Ok ax /\ fst ax = render elem /\
       map view (snd ax) = map sview (match ad with None => [] | Some r => defs u env false path ["AdditionalProperties"] r end)).
    { destruct ad as [r|]; [|exists ("any", []); repeat split; reflexivity].
      destruct (IH r path P HA) as [a [E G]]; [lia|]. rewrite E. cbn [because bind].
      destruct (use_good env path ["AdditionalProperties"] r a P G) as [[U1 U5 U8 U9] EQ]. rewrite <- EQ.
      eexists. split; [reflexivity|]. cbn [fst snd]. split; [exact U1|exact U8]. }
    destruct AX as [[at_ ats] [EA [A1 A2]]]. cbn [fst snd] in A1, A2.
    cbv zeta in EA |- *. rewrite EN. destruct st eqn:ST; cbn [negb andb].
    + rewrite EA. cbn [bind fst snd].
      destruct (props_good env n path P (b_required b) IH (by_key ps)) as [gs [EG F]].
      { intros p I. rewrite by_key_in in I. split; [apply HP, I|]. pose proof (depth_props _ p I). lia. }
      rewrite EG. cbn [bind].
      destruct (union_good env n path P IH "error generating type for anyOf: " an) as [ta [ua [EU [TA UA]]]].
      { intros r I. split; [apply HAN, I|]. pose proof (depth_union an r I). lia. }
      destruct (union_good env n path P IH "error generating type for oneOf: " on) as [to [uo [EV [TO UO]]]].
      { intros r I. split; [apply HON, I|]. pose proof (depth_union on r I). lia. }
      rewrite EU, EV. cbn [bind fst snd].
      pose proof (fields_text env path P (b_required b) (by_key ps) gs) as FT.
      specialize (FT (fun p I => HP p (proj1 (by_key_in p _) I)) F).
      pose proof (fields_defs env path (b_required b) (by_key ps) gs F) as FD.
      assert (UN : nonempty (ua ++ uo) = nonempty (elements an ++ elements on)) by (rewrite !nonempty_app, UA, UO; reflexivity).
      eexists. split; [reflexivity|].
      constructor; cbn [g_type g_enum g_has g_union g_ref g_skip g_desc g_alias g_types ty inner_defs enum_of value s_base];
        rewrite ?SL; try reflexivity.
      * unfold S0. cbn [body]. rewrite O. fold more. fold elem. fold st. rewrite ST. unfold genStruct. rewrite FT. cbn [render].
        rewrite (by_key_map (fun p => field_of u env (b_required b) (fst p) (snd p) (used u env (path ++ [fst p]) [] (snd p)))).
        rewrite map_map. cbn [snd]. change (map (fun x : string * sref => _) (by_key ps)) with (fields_of env path (b_required b) (by_key ps)).
        rewrite A1, <- UN. destruct more, (ua ++ uo); reflexivity.
      * cbn [andb]. exact UN.
      * unfold S0. cbn [s_base]. rewrite NE. reflexivity.
      * symmetry. exact NS.
      * unfold alias_of. rewrite SL. unfold S0. cbn [s_base]. rewrite O. reflexivity.
      * unfold enum_own. cbn [enum_of]. unfold S0. cbn [s_base defs_in]. rewrite O, NE. cbn [andb app]. rewrite !app_nil_r, !map_app, A2, TA, TO. reflexivity.
      * unfold enum_own. cbn [enum_of additionalTypeDefs]. unfold S0. cbn [s_base defs_in]. rewrite O, NE. cbn [andb]. rewrite !app_nil_r, !map_app, FD, A2, TA, TO.
        rewrite (by_key_map (fun p => defs u env true (path ++ [fst p]) [] (snd p))). reflexivity.
      * unfold S0. cbn [s_base]. unfold constants. rewrite NE. reflexivity.
    + assert (PN : ps = [] /\ an = None /\ on = None).
      { unfold st in ST. destruct ps, an, on; try discriminate. auto. }
      destruct PN as [-> [-> ->]]. fold more. destruct more eqn:M; cbn [negb].
      * rewrite EA. cbn [bind fst snd]. eexists. split; [reflexivity|].
        constructor; cbn [g_type g_enum g_has g_union g_ref g_skip g_desc g_alias g_types ty body inner_defs defs_in enum_of value s_base];
          rewrite ?SL, ?O; try reflexivity.
        -- unfold S0. cbn [body]. rewrite O. fold more. rewrite M. subst at_. reflexivity.
        -- unfold S0. cbn [s_base]. rewrite NE. reflexivity.
        -- symmetry. exact NS.
        -- unfold alias_of, more_of, S0. cbn [s_base s_props s_addl]. rewrite O. fold more. rewrite M. cbn [negb]. rewrite andb_false_r. reflexivity.
        -- unfold enum_own, S0. cbn [enum_of s_base defs_in elements elements_from]. rewrite O, NE. cbn [andb app]. rewrite !app_nil_r. exact A2.
        -- cbn [additionalTypeDefs flat_map app]. unfold enum_own, S0. cbn [enum_of s_base defs_in elements elements_from]. rewrite O, NE.
           cbn [andb map by_key fold_right flat_map app]. rewrite !app_nil_r. exact A2.
        -- unfold S0. cbn [s_base]. unfold constants. rewrite NE. reflexivity.
      * unfold more in M. apply orb_false_iff in M. destruct M as [M1 M2]. destruct ad as [r|]; [discriminate|].
        eexists. split; [reflexivity|].
        constructor; unfold plain; cbn [g_type g_enum g_has g_union g_ref g_skip g_desc g_alias g_types ty body inner_defs defs_in enum_of value s_base];
          rewrite ?SL, ?O; try reflexivity.
        -- unfold S0. cbn [body nonempty has_list orb]. rewrite O, M1. cbn [orb]. destruct (String.eqb (b_type b) "object"); reflexivity.
        -- unfold S0. cbn [s_base]. rewrite NE. reflexivity.
        -- symmetry. exact NS.
        -- unfold alias_of, more_of. rewrite SL. unfold S0. cbn [s_base s_props s_addl]. rewrite O, M1. reflexivity.
        -- unfold enum_own, S0. cbn [enum_of s_base defs_in]. rewrite O, NE. reflexivity.
        -- unfold enum_own, S0. cbn [enum_of s_base defs_in]. rewrite O, NE. reflexivity.
        -- unfold S0. cbn [s_base]. unfold constants. rewrite NE. reflexivity.
  - (* other types *)
    assert (X : exists t types props,
      oapiSchemaToGoType u (generateGoSchema u env n) (Sch b ps it ad None an on) path
        = Ok (t, skips (Inl (Sch b ps it ad None an on)), types, props, true) /\
      t = render (body u env path (Sch b ps it ad None an on)) /\
      map view types = map sview (defs_in u env false path (Sch b ps it ad None an on)) /\
      map view (flat_map (fun p => additionalTypeDefs (snd p)) props ++ types)
        = map sview (defs_in u env true path (Sch b ps it ad None an on))).
    { destruct (arraylike b) eqn:A.
      - assert (NS : skips (Inl (Sch b ps it ad None an on)) = false).
        { unfold skips. cbn [s_base]. unfold arraylike in A. apply String.eqb_eq in A. rewrite A. reflexivity. }
        rewrite NS. unfold oapiSchemaToGoType. cbn [s_base s_items]. unfold arraylike in A. rewrite A.
        cbn [body defs_in]. unfold arraylike. rewrite O, A. destruct it as [r|].
        + destruct (IH r path P HI) as [a [E G]]; [lia|]. rewrite E. cbn [because bind].
          destruct (use_good env path ["Item"] r a P G) as [[U1 U5 U8 U9] _].
          do 3 eexists. split; [reflexivity|]. split; [rewrite U1; reflexivity|]. split; [exact U8|].
          etransitivity; [|exact U9]. f_equal. destruct (own_type u (path ++ ["Item"]) a). reflexivity.
        + destruct n as [|n']; [lia|]. cbn [generateGoSchema because bind]. do 3 eexists.
          split; [reflexivity|]. split; [reflexivity|]. split; reflexivity.
      - destruct HT as [HT|[HT|HT]]; try discriminate.
        destruct (scalar (b_type b) (b_format b)) as [g|] eqn:Q; [|congruence].
        destruct (scalar_type env (generateGoSchema u env n) (Sch b ps it ad None an on) path g O A Q) as [E [N B]].
        rewrite E. do 3 eexists. split; [reflexivity|]. rewrite B. split; [reflexivity|].
        cbn [defs_in]. rewrite O, A. split; reflexivity. }
    destruct X as [t [types [props [E [T [D1 D2]]]]]].
    unfold gen_other. cbn [s_base]. rewrite E. cbn [because bind].
    destruct (b_enum b) as [|v vs] eqn:V.
    + assert (NE : enumlike b = false) by (unfold enumlike; rewrite O, V; reflexivity).
      eexists. split; [reflexivity|].
      constructor; cbn [g_type g_enum g_has g_union g_ref g_skip g_desc g_alias g_types ty inner_defs enum_of value s_base additionalTypeDefs];
        rewrite ?NE; try reflexivity; try (unfold constants; rewrite NE, ?V, ?EM; reflexivity).
      * exact T.
      * unfold structlike. cbn [s_base]. rewrite O. reflexivity.
      * unfold structlike. cbn [s_base]. rewrite O. reflexivity.
      * unfold alias_of. cbn [s_base]. rewrite O, NE. reflexivity.
      * unfold enum_own. cbn [enum_of s_base]. rewrite NE. cbn [andb]. rewrite app_nil_r. exact D1.
      * unfold enum_own. cbn [enum_of s_base]. rewrite NE. cbn [andb]. rewrite app_nil_r. exact D2.
    + assert (NE : enumlike b = true) by (unfold enumlike; rewrite O, V; reflexivity).
      destruct (enum_total u (v :: vs) (v :: vs)) as [m EM]. rewrite EM. cbn [bind].
      destruct (Nat.ltb 1 (length path)) eqn:L.
      * eexists. split; [reflexivity|].
        assert (EO : enum_own env path (Inl (Sch b ps it ad None an on))
                     = [(enum_name u path, dotted u path, b_desc b, false, constants u b, body u env path (Sch b ps it ad None an on))]).
        { unfold enum_own, own. cbn [enum_of s_base]. rewrite NE, L. reflexivity. }
        constructor; cbn [named g_type g_enum g_has g_union g_ref g_skip g_desc g_alias g_types ty inner_defs enum_of value s_base additionalTypeDefs];
          rewrite ?NE, ?L; try reflexivity; try (unfold constants; rewrite NE, ?V, ?EM; reflexivity).
        -- exact T.
        -- unfold structlike. cbn [s_base]. rewrite O. reflexivity.
        -- unfold structlike. cbn [s_base]. rewrite O. reflexivity.
        -- unfold alias_of. cbn [s_base]. rewrite O, NE. reflexivity.
        -- rewrite EO, !map_app, D1. f_equal. unfold view, sview, typeDecl, constants. cbn [map]. rewrite ?under_body, body_methods. unfold structlike. cbn [ fst snd g_desc g_alias g_enum g_type g_ref g_has g_union nonempty s_base String.eqb]. rewrite T, NE, V, EM, O. reflexivity.
        -- rewrite EO, app_assoc, !map_app. rewrite map_app in D2. rewrite D2. f_equal. unfold view, sview, typeDecl, constants. cbn [map]. rewrite ?under_body, body_methods. unfold structlike. cbn [ fst snd g_desc g_alias g_enum g_type g_ref g_has g_union nonempty s_base String.eqb]. rewrite T, NE, V, EM, O. reflexivity.
      * eexists. split; [reflexivity|].
        assert (EO : enum_own env path (Inl (Sch b ps it ad None an on)) = []).
        { unfold enum_own. cbn [enum_of s_base]. rewrite NE, L. reflexivity. }
        constructor; cbn [named g_type g_enum g_has g_union g_ref g_skip g_desc g_alias g_types ty inner_defs enum_of value s_base additionalTypeDefs];
          rewrite ?NE, ?L; try reflexivity; try (unfold constants; rewrite NE, ?V, ?EM; reflexivity).
        -- exact T.
        -- unfold structlike. cbn [s_base]. rewrite O. reflexivity.
        -- unfold structlike. cbn [s_base]. rewrite O. reflexivity.
        -- unfold alias_of. cbn [s_base]. rewrite O, NE. reflexivity.
        -- rewrite EO, app_nil_r. exact D1.
        -- rewrite EO, app_nil_r. exact D2.
Qed.
End Facts.
