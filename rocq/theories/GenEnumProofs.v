(** Proofs about the constants of a generated file. *)
From Verif Require Import Prelude Strings Version Util UtilProofs GenName GenNameProofs GenSpellProofs
  GenCommentProofs GenType GenTypeSpec GenTypeProofs GenDeclProofs.
Local Open Scope string_scope.
Local Open Scope list_scope.

Section Enum.
Variable u : unicode.
Variable env : string -> schema.

(** *** The text *)

(** The literal of a value in the constants of a type. *)
Definition literal (t : gty) (v : string) : string :=
  match under t with
  | GId n => if String.eqb n "string" then ("""" ++ v ++ """")%string else v
  | _ => v
  end.

Definition consts_text (d : decl) : string :=
  let '(n, _, _, _, c, t) := d in
  match c with
  | [] => ""
  | _ =>
      (newline ++ "// Defines values for " ++ n ++ "." ++ newline ++ "const (" ++ newline
       ++ String.concat "" (map (fun kv => newline ++ "  " ++ n ++ fst kv ++ " " ++ n ++ " = " ++ literal t (snd kv)) (by_key c))
       ++ newline ++ ")" ++ newline)%string
  end.

(** Enums whose constants have names. *)
Definition good_consts (c : list (string * string)) : Prop :=
  Forall word (map fst c) /\ NoDup (map fst c).

Lemma leb_prefix n a b : str_leb (n ++ a) (n ++ b) = str_leb a b.
Proof. induction n as [|c n IH]; [reflexivity|]. cbn [append str_leb]. rewrite Ascii.eqb_refl. exact IH. Qed.

Lemma insert_prefix n (x : string * string) l :
  insert ((n ++ fst x)%string, snd x) (map (fun kv => ((n ++ fst kv)%string, snd kv)) l)
  = map (fun kv => ((n ++ fst kv)%string, snd kv)) (insert x l).
Proof.
  induction l as [|y r IH]; [reflexivity|]. cbn [map insert fst]. rewrite leb_prefix.
  destruct (str_leb (fst x) (fst y)); [reflexivity|]. cbn [map]. rewrite IH. reflexivity.
Qed.
Lemma by_key_prefix n (l : list (string * string)) :
  by_key (map (fun kv => ((n ++ fst kv)%string, snd kv)) l) = map (fun kv => ((n ++ fst kv)%string, snd kv)) (by_key l).
Proof.
  induction l as [|x r IH]; [reflexivity|]. unfold by_key in *. cbn [map fold_right]. rewrite IH. apply insert_prefix.
Qed.

Lemma upper_word k : word k -> uppercaseFirst u k = k.
Proof.
  intros W. pose proof (word_all k W) as A. destruct W as [c [t [-> [U R]]]].
  assert (I : all is_ascii (String c t) = true) by (revert A; apply all_impl, alnum_ascii).
  unfold uppercaseFirst. rewrite runes_ascii by exact I. cbn [codes].
  cbn [all] in I. apply andb_true_iff in I. destruct I as [I1 I2].
  destruct (ascii_small u c I1) as [_ [_ [_ ->]]].
  assert (E : upc c = c).
  { unfold upc. destruct (lowerc c) eqn:L; [|reflexivity]. unfold upperc, lowerc, a_upper, a_lower in *.
    apply within_iff in U, L. lia. }
  rewrite E. change (encode (codes (String c t)) = String c t). apply encode_codes. cbn [all]. rewrite I1. exact I2.
Qed.

Lemma fold_put n (c : list (string * string)) : forall acc : list (string * string), (forall k, In k (map fst c) -> word k) -> NoDup (map fst c) ->
  (forall k, In k (map fst c) -> ~ In (n ++ k)%string (map fst acc)) ->
  fold_left (fun acc kv => put (n ++ uppercaseFirst u (fst kv))%string (snd kv) acc) c acc
  = acc ++ map (fun kv => ((n ++ fst kv)%string, snd kv)) c.
Proof.
  induction c as [|[k v] c IH]; intros acc W N F; [rewrite app_nil_r; reflexivity|]. cbn [map fst] in N.
  inversion N as [|? ? N1 N2]; subst. cbn [fold_left map fst snd].
  rewrite (upper_word k) by (apply W; left; reflexivity).
  rewrite put_fresh by (apply F; left; reflexivity). rewrite IH.
  - rewrite <- app_assoc. reflexivity.
  - intros k' I. apply W. right. exact I.
  - exact N2.
  - intros k' I Q. rewrite map_app in Q. apply in_app_iff in Q. destruct Q as [Q|[Q|[]]].
    + apply (F k'); [right; exact I|exact Q].
    + cbn in Q. apply app_inj_l in Q. subst k'. exact (N1 I).
Qed.

Lemma render_string t : String.eqb (render (under t)) "string" = match under t with GId n => String.eqb n "string" | _ => false end.
Proof.
  induction t as [n|n t IH|t _|t _|t _|fs ad un]; try reflexivity; [exact IH|]. cbn [render under].
  match goal with |- String.eqb (String.concat newline ("struct {" :: ?l)) _ = _ => destruct l; reflexivity end.
Qed.

Lemma enums_spec ts : forall ds seen, map view ts = map sview ds -> NoDup (dnames ds) ->
  (forall n, In n seen -> ~ In n (dnames ds)) ->
  (forall d, In d ds -> good_consts (snd (fst d))) ->
  map enum_text (enum_types u seen ts) = filter (fun s => negb (String.eqb s "")) (map consts_text ds).
Proof.
  induction ts as [|[[n j] g] ts IH]; intros [|e ds] seen V N F G; try discriminate; [reflexivity|].
  cbn [map] in V. injection V as V1 V. destruct e as [[[[[n' j'] dd] a] c] t].
  unfold view, sview in V1. cbn [fst snd] in V1. injection V1 as -> -> V3 V4 V5 V6 V7 _.
  inversion N as [|? ? N1 N2]; subst. cbn [enum_types].
  destruct (existsb (String.eqb n') seen) eqn:X.
  { apply existsb_exists in X. destruct X as [x [X1 X2]]. apply String.eqb_eq in X2. subst x. exfalso. apply (F n' X1). left. reflexivity. }
  assert (R : map enum_text (enum_types u (n' :: seen) ts) = filter (fun s => negb (String.eqb s "")) (map consts_text ds)).
  { apply IH; [exact V|exact N2| |intros d I; apply G; right; exact I].
    intros m [<-|I]; [exact N1|]. intros Q. apply (F m I). right. exact Q. }
  destruct (g_enum g) as [|kv c0] eqn:C.
  - cbn [map consts_text filter String.eqb negb]. exact R.
  - cbn [map]. cbn [consts_text filter].
    destruct (G (n', j', g_desc g, g_alias g, kv :: c0, t) (or_introl eq_refl)) as [G1 G2]. cbn [fst snd] in G1, G2.
    cbn [append String.eqb newline negb].
    rewrite R. f_equal. unfold enum_text. rewrite (fold_put n' (kv :: c0) []); [|rewrite <- Forall_forall; exact G1|exact G2|intros k _ []].
    cbn [app]. rewrite by_key_prefix, map_map. cbn [fst snd]. rewrite V6, render_string.
    erewrite map_ext; [reflexivity|]. intros [k v]. cbn [fst snd]. unfold literal.
    rewrite !str_app_assoc. destruct (under t); try reflexivity; try (rewrite str_app_nil; reflexivity).
    destruct (String.eqb n "string"); [reflexivity|]. rewrite str_app_nil. reflexivity.
Qed.

(** *** Types declared more than once *)

(** The constants that are written for a type. *)
Definition enum_entry (d : string * string * gsch) : list (string * string * list (string * string)) :=
  match g_enum (snd d) with
  | [] => []
  | vs => [(fst (fst d), (if String.eqb (g_type (snd d)) "string" then dquote else ""),
            fold_left (fun acc kv => put (fst (fst d) ++ uppercaseFirst u (fst kv))%string (snd kv) acc) vs [])]
  end.

Lemma enums_unique same ts : forall seen us, unique_types same seen ts = Ok us ->
  enum_types u (tnames seen) ts = flat_map enum_entry us.
Proof.
  induction ts as [|[[n j] g] ts IH]; intros seen us H; cbn [unique_types] in H.
  - injection H as <-. reflexivity.
  - cbn [enum_types fst snd] in *. destruct (find _ seen) as [e|] eqn:F.
    + destruct (same _ _); [|discriminate]. apply find_some in F. destruct F as [F1 F2]. apply String.eqb_eq in F2.
      replace (existsb (String.eqb n) (tnames seen)) with true; [apply IH, H|].
      symmetry. apply existsb_exists. exists n. split; [|apply String.eqb_refl].
      apply in_map_iff. exists e. split; [exact F2|exact F1].
    + destruct (unique_types same ((n, j, g) :: seen) ts) as [more| | |] eqn:E; try discriminate. injection H as <-.
      replace (existsb (String.eqb n) (tnames seen)) with false.
      * cbn [flat_map]. unfold enum_entry at 1. cbn [fst snd].
        change (n :: tnames seen) with (tnames ((n, j, g) :: seen)). rewrite (IH _ _ E).
        destruct (g_enum g); reflexivity.
      * symmetry. apply Bool.not_true_iff_false. intros Q. apply existsb_exists in Q. destruct Q as [x [Q1 Q2]].
        apply String.eqb_eq in Q2. subst x. apply in_map_iff in Q1. destruct Q1 as [e [Q1 I]].
        pose proof (find_none _ _ F e I) as Z. cbn in Z. rewrite Q1, String.eqb_refl in Z. discriminate.
Qed.

Lemma enums_once same ts us : unique_types same [] ts = Ok us ->
  generateEnums u ts = (newline ++ String.concat "" (map enum_text (flat_map enum_entry us)) ++ newline)%string.
Proof. intros H. unfold generateEnums. rewrite <- (enums_unique same ts [] us H). reflexivity. Qed.

(** *** Names and values of the constants *)

Lemma enum_map_words (m : list (string * string)) : forall acc : list (string * string), Forall word (map fst m) -> NoDup (map fst m) ->
  (forall k, In k (map fst m) -> ~ In k (map fst acc)) ->
  fold_left (fun acc kv => put (schemaNameToTypeName u (fst kv)) (snd kv) acc) m acc = acc ++ m.
Proof.
  induction m as [|[k v] m IH]; intros acc W N F; [rewrite app_nil_r; reflexivity|].
  cbn [map fst] in W, N. inversion W as [|? ? W1 W2]; subst. inversion N as [|? ? N1 N2]; subst.
  cbn [fold_left fst snd]. rewrite word_name by exact W1. rewrite put_fresh by (apply F; left; reflexivity).
  rewrite IH; [rewrite <- app_assoc; reflexivity|exact W2|exact N2|].
  intros k' I Q. rewrite map_app in Q. apply in_app_iff in Q. destruct Q as [Q|[Q|[]]].
  - apply (F k'); [right; exact I|exact Q].
  - cbn in Q. subst k'. exact (N1 I).
Qed.

Lemma split_pairs {A B} (l : list (A * B)) : l = combine (map fst l) (map snd l).
Proof. induction l as [|[a b] l IH]; [reflexivity|]. cbn. rewrite <- IH. reflexivity. Qed.

Lemma constants_exact b : enumlike b = true -> NoDup (b_enum b) ->
  (forall v, In v (b_enum b) -> word (schemaNameToTypeName u v)) -> apart u (b_enum b) ->
  constants u b = combine (numbered [] (map (schemaNameToTypeName u) (b_enum b))) (b_enum b) /\
  good_consts (constants u b) /\ map snd (constants u b) = b_enum b.
Proof.
  intros E N W A. destruct (enum_all u (b_enum b) N W A) as [m [H1 [H2 [H3 [H4 H5]]]]].
  unfold constants. rewrite E, H1. unfold enum_map.
  rewrite (enum_map_words m []) by (auto; intros k _ []). cbn [app].
  split; [|split; [split; assumption|exact H2]]. rewrite <- H2 at 2. rewrite <- H3. apply split_pairs.
Qed.

(** The names of the constants of a declaration. *)
Definition const_names (d : decl) : list string :=
  let '(n, _, _, _, c, _) := d in map (fun kv => n ++ fst kv)%string c.

Lemma const_names_distinct d : good_consts (snd (fst d)) -> NoDup (const_names d).
Proof.
  destruct d as [[[[[n j] dd] a] c] t]. cbn [fst snd]. intros [_ N]. cbn [const_names].
  induction c as [|[k v] c IH]; [constructor|]. cbn [map fst] in *. inversion N as [|? ? N1 N2]; subst.
  constructor; [|apply IH, N2]. intros I. apply in_map_iff in I. destruct I as [[k' v'] [Q I]]. cbn in Q.
  apply app_inj_l in Q. subst k'. apply N1. apply in_map_iff. exists (k, v'). auto.
Qed.

Lemma concat_filter l : String.concat "" (filter (fun s => negb (String.eqb s "")) l) = String.concat "" l.
Proof.
  assert (C : forall x l, String.concat "" (x :: l) = (x ++ String.concat "" l)%string).
  { intros x [|y r]; [cbn; rewrite str_app_nil; reflexivity|reflexivity]. }
  induction l as [|x l IH]; [reflexivity|]. cbn [filter]. destruct (String.eqb_spec x "") as [E|E]; cbn [negb].
  - subst x. rewrite C. exact IH.
  - rewrite !C, IH. reflexivity.
Qed.

(** The constants of a file. *)
Lemma file_consts n l : doc_ok l -> doc_depth l <= n -> NoDup (dnames (doc_decls u env l)) ->
  (forall d, In d (doc_decls u env l) -> good_consts (snd (fst d))) ->
  exists ts, generateTypesForSchemas u env n l = Ok ts /\
    generateEnums u ts = (newline ++ String.concat "" (map consts_text (doc_decls u env l)) ++ newline)%string.
Proof.
  intros H D N G. destruct (generate_spec u env n l H D) as [ts [E V]]. exists ts. split; [exact E|].
  unfold generateEnums. rewrite (enums_spec ts (doc_decls u env l) [] V N (fun _ I => match I with end) G), concat_filter. reflexivity.
Qed.
End Enum.

(** *** String literals *)

(** What an interpreted string literal of Go denotes; of the escapes only those
    of one character. *)
Definition escape (c : ascii) : option ascii :=
  if Ascii.eqb c "n" then Some (ascii_of_nat 10)
  else if Ascii.eqb c "t" then Some (ascii_of_nat 9)
  else if Ascii.eqb c "r" then Some (ascii_of_nat 13)
  else if Ascii.eqb c "a" then Some (ascii_of_nat 7)
  else if Ascii.eqb c "b" then Some (ascii_of_nat 8)
  else if Ascii.eqb c "f" then Some (ascii_of_nat 12)
  else if Ascii.eqb c "v" then Some (ascii_of_nat 11)
  else if Ascii.eqb c "\" then Some "\"%char
  else if Ascii.eqb c """" then Some """"%char
  else None.
Fixpoint go_chars (s : string) : option string :=
  match s with
  | EmptyString => None
  | String c r =>
      if Ascii.eqb c """" then match r with EmptyString => Some "" | _ => None end
      else if Ascii.eqb c (ascii_of_nat 10) then None
      else if Ascii.eqb c "\" then
        match r with
        | EmptyString => None
        | String e r => match escape e, go_chars r with Some x, Some t => Some (String x t) | _, _ => None end
        end
      else option_map (String c) (go_chars r)
  end.
Definition go_string (s : string) : option string :=
  match s with String c r => if Ascii.eqb c """" then go_chars r else None | EmptyString => None end.

Definition no_escape (c : ascii) : bool :=
  negb (Ascii.eqb c """" || Ascii.eqb c (ascii_of_nat 10) || Ascii.eqb c "\").

Lemma literal_value v : all no_escape v = true -> go_string (literal (GId "string") v) = Some v.
Proof.
  intros H. unfold literal. cbn [String.eqb Ascii.eqb Bool.eqb]. change (go_chars (v ++ """") = Some v).
  induction v as [|c v IH]; [reflexivity|]. cbn [all] in H. apply andb_true_iff in H. destruct H as [H1 H2].
  unfold no_escape in H1. apply negb_true_iff in H1. apply orb_false_iff in H1. destruct H1 as [H1 H3].
  apply orb_false_iff in H1. destruct H1 as [H1 H4]. cbn [append go_chars]. rewrite H1, H4, H3, IH by exact H2. reflexivity.
Qed.

(** A quote ends the literal; a backslash changes the value. *)
Lemma literal_wrong :
  go_string (literal (GId "string") "a""b") = None /\
  exists w, go_string (literal (GId "string") "a\nb") = Some w /\ w <> "a\nb".
Proof. split; [reflexivity|]. eexists. split; [vm_compute; reflexivity|discriminate]. Qed.

(** *** Names that clash *)

Definition enum_schema (vs : list string) : sref :=
  Inl (Sch (mkBase "string" "" "" vs [] false false false false false false false false false false)
         [] None None None None None).
Definition clash_doc : list (string * sref) :=
  [("Foo", enum_schema ["barX"; "bar"]); ("FooBar", enum_schema ["x"])].

Lemma clash u env : doc_ok clash_doc /\ NoDup (dnames (doc_decls u env clash_doc)) /\
  ~ NoDup (flat_map const_names (doc_decls u env clash_doc)) /\
  exists c, In c (flat_map const_names (doc_decls u env clash_doc)) /\ In c (dnames (doc_decls u env clash_doc)).
Proof.
  split.
  { intros p [<-|[<-|[]]]; (split; [reflexivity|]); cbn; repeat split; auto; right; right; discriminate. }
  assert (E : flat_map const_names (doc_decls u env clash_doc) = ["FooBarX"; "FooBar"; "FooBarX"]) by reflexivity.
  assert (D : dnames (doc_decls u env clash_doc) = ["Foo"; "FooBar"]) by reflexivity.
  rewrite E, D. split.
  { constructor; [intros [Q|[]]; discriminate|]. constructor; [intros []|constructor]. }
  split.
  - intros N. inversion N as [|? ? N1 _]; subst. apply N1. right. left. reflexivity.
  - exists "FooBar". cbn. auto.
Qed.
