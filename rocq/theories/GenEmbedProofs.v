(** Proofs about references: their names, and compositions of references. *)
From Verif Require Gocode.
From Verif Require Import Prelude Strings Version Util UtilProofs GenName GenNameProofs GenSpellProofs
  GenCommentProofs GenType GenTypeSpec GenTypeProofs GenMergeProofs.
Local Open Scope string_scope.
Local Open Scope list_scope.

(** *** Splitting at a character *)

Definition free (c : ascii) (s : string) : Prop := all (fun x => negb (Ascii.eqb x c)) s = true.

Section Split.
Variable c : ascii.
Let sep : string := String c "".

Lemma split_char x s : split_str (String x s) sep =
  if Ascii.eqb x c then "" :: split_str s sep
  else match split_str s sep with p :: ps => String x p :: ps | [] => [String x ""] end.
Proof.
  unfold split_str, sep. cbn [split_aux String.length Nat.sub].
  assert (P : String.prefix (String c "") (String x s) = Ascii.eqb x c).
  { cbn [String.prefix]. destruct (ascii_dec c x) as [<-|N].
    - rewrite Ascii.eqb_refl. destruct s; reflexivity.
    - destruct (Ascii.eqb_spec x c); [congruence|reflexivity]. }
  rewrite P. reflexivity.
Qed.
Lemma split_some s : split_str s sep <> [].
Proof. destruct s as [|x s]; [discriminate|]. rewrite split_char. destruct (Ascii.eqb x c); [discriminate|]. destruct (split_str s sep); discriminate. Qed.
Lemma split_free s : free c s -> split_str s sep = [s].
Proof.
  unfold free. induction s as [|x s IH]; [reflexivity|]. cbn [all]. intros H. apply andb_true_iff in H. destruct H as [H1 H2].
  apply negb_true_iff in H1. rewrite split_char, H1, (IH H2). reflexivity.
Qed.
Lemma split_glue a b : split_str (a ++ String c b) sep = split_str a sep ++ split_str b sep.
Proof.
  induction a as [|x a IH]; [cbn [append]; rewrite split_char, Ascii.eqb_refl; reflexivity|]. cbn [append]. rewrite !split_char.
  destruct (Ascii.eqb x c); [rewrite IH; reflexivity|]. rewrite IH. pose proof (split_some a). destruct (split_str a sep); [contradiction|reflexivity].
Qed.
Lemma split_joined ls : ls <> [] -> Forall (free c) ls -> split_str (String.concat sep ls) sep = ls.
Proof.
  intros NE F. induction F as [|x r P F IH]; [contradiction|]. destruct r as [|y r]; [apply split_free, P|].
  change (String.concat sep (x :: y :: r)) with (x ++ String c (String.concat sep (y :: r)))%string.
  rewrite split_glue, (split_free x P). cbn [app]. f_equal. apply IH. discriminate.
Qed.
Lemma split_parts s : Forall (free c) (split_str s sep) /\ String.concat sep (split_str s sep) = s.
Proof.
  induction s as [|x s [IH1 IH2]]; [split; [repeat constructor|reflexivity]|]. rewrite split_char. pose proof (split_some s) as NE.
  destruct (split_str s sep) as [|p ps]; [contradiction|]. destruct (Ascii.eqb x c) eqn:E.
  - apply Ascii.eqb_eq in E. subst x. split; [constructor; [reflexivity|exact IH1]|]. rewrite <- IH2. reflexivity.
  - inversion IH1 as [|? ? P1 P2]; subst. split; [constructor; [|exact P2]|].
    + unfold free in *. cbn [all]. rewrite E. exact P1.
    + destruct ps; reflexivity.
Qed.
End Split.

(** *** References *)

(** A local reference of the usual depth. *)
Definition local_ref (r n : string) : Prop := exists a b c,
  r = ("#" ++ a ++ "/" ++ b ++ "/" ++ c ++ "/" ++ n)%string /\ free "/" a /\ free "/" b /\ free "/" c /\ free "/" n.

Lemma reference_named u r t : refPathToGoType u r = Ok t <-> exists n, local_ref r n /\ t = schemaNameToTypeName u n.
Proof.
  unfold refPathToGoType. split.
  - destruct (has_prefix r hash) eqn:P.
    + destruct (Nat.eqb_spec (length (split_str r "/")) 4) as [L|L]; [|discriminate]. intros H. injection H as <-.
      destruct (split_parts "/" r) as [F J]. destruct (split_str r "/") as [|a [|b [|c [|n [|]]]]]; try discriminate L.
      cbn [last_part]. exists n. split; [|reflexivity].
      inversion F as [|? ? F1 F']; subst. inversion F' as [|? ? F2 F'']; subst. inversion F'' as [|? ? F3 F3']; subst.
      inversion F3' as [|? ? F4 _]; subst. destruct a as [|x a].
      * exfalso. unfold has_prefix, hash in P. cbn in P. destruct (ascii_dec "#" "/"); discriminate.
      * unfold has_prefix, hash in P. cbn [String.concat append String.prefix] in P. destruct (ascii_dec "#" x) as [<-|]; [|discriminate].
        exists a, b, c. split; [reflexivity|]. unfold free in F1. cbn [all] in F1. apply andb_true_iff in F1. tauto.
    + destruct (Nat.eqb _ 2); discriminate.
  - intros [n [[a [b [c [-> [F1 [F2 [F3 F4]]]]]]] ->]].
    assert (P : has_prefix ("#" ++ a ++ "/" ++ b ++ "/" ++ c ++ "/" ++ n) hash = true).
    { unfold has_prefix, hash. cbn [append String.prefix]. destruct (ascii_dec "#" "#") as [_|N]; [|contradiction].
      destruct (a ++ _)%string; reflexivity. }
    rewrite P.
    assert (E : split_str ("#" ++ a ++ "/" ++ b ++ "/" ++ c ++ "/" ++ n) "/" = [("#" ++ a)%string; b; c; n]).
    { change ("#" ++ a ++ "/" ++ b ++ "/" ++ c ++ "/" ++ n)%string with (String "#" (a ++ String "/" (b ++ String "/" (c ++ String "/" n))))%string.
      change (String "#" (a ++ String "/" (b ++ String "/" (c ++ String "/" n))))%string
        with ((String "#" a) ++ String "/" (b ++ String "/" (c ++ String "/" n)))%string.
      rewrite !(split_glue "/"), !(split_free "/") by assumption. reflexivity. }
    rewrite E. reflexivity.
Qed.
Lemma reference_total u r : exists t, refPathToGoType u r = Ok t \/ exists e, refPathToGoType u r = Err e.
Proof.
  unfold refPathToGoType. destruct (has_prefix r hash).
  - destruct (Nat.eqb _ 4); [eauto|]. exists "". right. eauto.
  - exists "". right. destruct (Nat.eqb _ 2); eauto.
Qed.

(** *** Paths *)

(** A name in lower camel case. *)
Definition camel (n : string) : Prop := exists c r, n = String c r /\ lowerc c = true /\ all alnum r = true.

Lemma camel_name u c r : letterc c = true -> all alnum r = true -> toCamelCase u (String c r) = String (upc c) r.
Proof.
  intros H A. pose proof (type_name_plain u c r H A) as T. unfold schemaNameToTypeName in T.
  assert (Hc : alnum c = true) by (unfold alnum; unfold letterc in H; rewrite H; reflexivity).
  assert (AA : all is_ascii (String c r) = true).
  { cbn. rewrite (alnum_ascii c Hc). apply (all_impl alnum); [apply alnum_ascii|exact A]. }
  assert (L : String.length (toCamelCase u (String c r)) = String.length (String c r)).
  { rewrite (toCamel_ascii u _ AA). unfold trim_spaces. cbn [trim_left].
    rewrite (letter_not_space c H). rewrite trim_right_alnum by (cbn; rewrite Hc; exact A).
    cbn [camel_str]. rewrite (alnum_sep c Hc), (camel_plain r A). unfold letterc in H. destruct (upperc c); [reflexivity|]. cbn [orb] in H.
    destruct (digitc c); [reflexivity|]. destruct (lowerc c); [reflexivity|discriminate H]. }
  destruct (typeNamePrefix u (String c r)) as [|a q]; [exact T|]. exfalso. apply (f_equal String.length) in T.
  rewrite str_length_app in T. cbn in *. lia.
Qed.
Lemma camel_upper u n : camel n -> exists c r, n = String c r /\ toCamelCase u n = String (upc c) r /\ free "_" (String (upc c) r).
Proof.
  intros [c [r [-> [H A]]]]. exists c, r. split; [reflexivity|].
  assert (Hc : letterc c = true) by (unfold letterc; rewrite H; apply orb_true_r).
  split; [apply camel_name; assumption|]. unfold free. cbn [all]. apply andb_true_iff. split.
  - unfold upc. rewrite H. unfold lowerc, a_lower in H. apply within_iff in H. apply negb_true_iff.
    destruct (Ascii.eqb_spec (ascii_of_N (N_of_ascii c - 32)) "_") as [E|]; [|reflexivity].
    apply (f_equal N_of_ascii) in E. rewrite N_ascii_embedding in E by lia. cbn in E. lia.
  - apply (all_impl alnum); [|exact A]. intros x Hx. destruct (Ascii.eqb_spec x "_") as [->|]; [discriminate|reflexivity].
Qed.
Lemma paths_apart u p q : Forall camel p -> Forall camel q -> p <> [] -> q <> [] ->
  pathToTypeName u p = pathToTypeName u q -> p = q.
Proof.
  intros FP FQ NP NQ E. unfold pathToTypeName in E.
  assert (X : forall l, Forall camel l -> Forall (free "_") (map (toCamelCase u) l)).
  { intros l F. induction F as [|n l H F IH]; [constructor|]. cbn [map]. constructor; [|exact IH].
    destruct (camel_upper u n H) as [c [r [_ [-> Q]]]]. exact Q. }
  assert (M : map (toCamelCase u) p = map (toCamelCase u) q).
  { rewrite <- (split_joined "_" (map (toCamelCase u) p)); [|destruct p; [contradiction|discriminate]|apply X, FP].
    rewrite <- (split_joined "_" (map (toCamelCase u) q)); [|destruct q; [contradiction|discriminate]|apply X, FQ].
    rewrite E. reflexivity. }
  clear -FP FQ M. revert q FQ M. induction FP as [|n p H F IH]; intros [|m q] FQ M; try discriminate; [reflexivity|].
  inversion FQ as [|? ? H' F']; subst. cbn [map] in M. injection M as M1 M2. f_equal; [|apply IH; assumption].
  destruct H as [c [r [-> [L A]]]], H' as [c' [r' [-> [L' A']]]].
  assert (P : forall x, lowerc x = true -> letterc x = true) by (intros x Hx; unfold letterc; rewrite Hx; apply orb_true_r).
  apply (camel_distinct u); auto. rewrite !type_name_plain by auto. rewrite !camel_name in M1 by auto. exact M1.
Qed.
Lemma path_exact u p : Forall camel p -> pathToTypeName u p = String.concat "_" (map capital p).
Proof.
  intros F. unfold pathToTypeName. f_equal. induction F as [|n p [c [r [-> [L A]]]] F IH]; [reflexivity|]. cbn [map]. rewrite IH, camel_name; auto.
  unfold letterc. rewrite L. apply orb_true_r.
Qed.
(** Without the underscores, paths meet. *)
Lemma paths_meet u : camel "a" /\ camel "b" /\ camel "aB" /\
  Gocode.strip (pathToTypeName u ["a"; "b"]) = Gocode.strip (pathToTypeName u ["aB"]).
Proof.
  split; [exists "a"%char, ""; auto|]. split; [exists "b"%char, ""; auto|]. split; [exists "a"%char, "B"; auto|]. vm_compute. reflexivity.
Qed.

(** *** Compositions of references *)

Definition part_name (r : sref) : string := last_part (split_str (ref_of r) "/").
Definition embedded (d : string) : sref := Inl (Sch (inner_base d) [] None None None None None).

(** The property of a name in a composition: the last part of the name, unless
    the name has an underscore. *)
Definition embeds (env : string -> schema) (k : string) (own : option sref) (l : list sref) : option sref :=
  if contains k "_" then own
  else match find (fun r => String.eqb (part_name r) k) (rev l) with
       | Some r => Some (embedded (b_desc (s_base (value env r))))
       | None => own
       end.

Lemma find_app {A} (f : A -> bool) a b : find f (a ++ b) = match find f a with Some x => Some x | None => find f b end.
Proof. induction a as [|x a IH]; [reflexivity|]. cbn [app find]. destruct (f x); [reflexivity|exact IH]. Qed.

Lemma allof_refs env l : Forall (fun r => ref_of r <> "") l -> forall ps, ps <> [] ->
  exists P, allof_loop env ps l = Ok (false, P) /\ P <> [] /\ (is_map ps -> is_map P) /\
    forall k, lookup k P = embeds env k (lookup k ps) l.
Proof.
  intros F. induction F as [|r l H F IH]; intros ps NE.
  - exists ps. cbn [allof_loop]. split; [reflexivity|]. split; [exact NE|]. split; [auto|]. intros k. unfold embeds. cbn. destruct (contains k "_"); reflexivity.
  - cbn [allof_loop]. destruct (String.eqb_spec (ref_of r) ""); [contradiction|]. cbv zeta. fold (part_name r).
    assert (ST : forall k own, embeds env k own (r :: l) = embeds env k (if negb (contains k "_") && String.eqb (part_name r) k then Some (embedded (b_desc (s_base (value env r)))) else own) l).
    { intros k own. unfold embeds. destruct (contains k "_"); [reflexivity|]. cbn [rev negb andb]. rewrite find_app.
      destruct (find _ (rev l)); [reflexivity|]. cbn [find]. destruct (String.eqb (part_name r) k); reflexivity. }
    destruct (contains (part_name r) "_") eqn:U.
    + destruct (IH ps NE) as [P [E [N [M L]]]]. exists P. split; [exact E|]. split; [exact N|]. split; [exact M|]. intros k. rewrite L, ST. f_equal.
      destruct (String.eqb_spec (part_name r) k) as [<-|]; [rewrite U; reflexivity|rewrite andb_false_r; reflexivity].
    + destruct ps as [|p ps]; [contradiction|]. set (ps' := p :: ps) in *.
      destruct (IH (put (part_name r) (embedded (b_desc (s_base (value env r)))) ps')) as [P [E [N [M L]]]].
      { unfold ps'. destruct p as [a v]. cbn [put]. destruct (String.eqb _ a); discriminate. }
      exists P. split; [exact E|]. split; [exact N|]. split; [intros I; apply M, put_map, I|]. intros k. rewrite L, ST. f_equal.
      destruct (String.eqb_spec (part_name r) k) as [<-|Q].
      * rewrite U. cbn [negb andb]. apply lookup_put_same.
      * rewrite andb_false_r. apply lookup_put_other. congruence.
Qed.

Section Embed.
Variable u : unicode.
Variable env : string -> schema.

Lemma embed b ps it ad l any one : ps <> [] -> objectlike b = true -> Forall (fun r => ref_of r <> "") l ->
  exists P, P <> [] /\ (is_map ps -> is_map P) /\ (forall k, lookup k P = embeds env k (lookup k ps) l) /\
    forall n path, generateGoSchema u env (S n) (Some (Inl (Sch b ps it ad (Some l) any one))) path
      = match generateGoSchema u env (S n) (Some (Inl (Sch b P it ad None any one))) path with
        | Ok g => Ok (with_oapi (Some (Sch b ps it ad (Some l) any one)) g)
        | o => o
        end.
Proof.
  intros NE O F. destruct (allof_refs env l F ps NE) as [P [E [N [M L]]]]. exists P. split; [exact N|]. split; [exact M|]. split; [exact L|].
  intros n path. cbn [generateGoSchema ref_of]. unfold isGoTypeReference. cbn [String.eqb negb andb value].
  unfold gen_schema. cbn [s_allOf s_base s_props]. rewrite E. cbn [bind].
  change (String.eqb (b_type b) "" || String.eqb (b_type b) "object") with (objectlike b). rewrite O.
  unfold gen_object. cbn [s_base s_anyOf s_oneOf s_addl andb]. unfold hasAdditional. cbn [s_base s_addl].
  destruct P as [|p P]; [contradiction|].
  destruct ad as [x|].
  - destruct (because _ _); cbn [bind]; try reflexivity. cbn [andb]. destruct (gen_props _ _ _ _ _ _); cbn [bind]; try reflexivity.
    destruct (gen_union_opt _ _ _ _ any); cbn [bind]; try reflexivity. destruct (gen_union_opt _ _ _ _ one); cbn [bind]; reflexivity.
  - cbn [bind andb]. destruct (gen_props _ _ _ _ _ _); cbn [bind]; try reflexivity.
    destruct (gen_union_opt _ _ _ _ any); cbn [bind]; try reflexivity. destruct (gen_union_opt _ _ _ _ one); cbn [bind]; reflexivity.
Qed.

(** A part is a field without type and tag. *)
Lemma embedded_field n path first name d :
  exists g, generateGoSchema u env (S n) (Some (embedded d)) path = Ok g /\
    own_type u path g = g /\ additionalTypeDefs g = [] /\
    genField u first (mkP name d false false false false false, g)
    = ((if String.eqb d "" then ""
        else (if first then "" else newline) ++ stringWithTypeNameToGoComment d (schemaNameToTypeName u name) ++ newline)
       ++ "    " ++ schemaNameToTypeName u name ++ " ")%string.
Proof.
  eexists. split; [reflexivity|]. split; [reflexivity|]. split; [reflexivity|]. unfold genField. cbn [p_name p_desc p_dep tag_of].
  reflexivity.
Qed.
End Embed.
