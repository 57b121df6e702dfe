(** Specification and proofs for [GenTag.v]. *)
From Coq Require Import Permutation.
From Verif Require Import Prelude Strings Version GenName GenNameProofs GenType GenTypeProofs GenTypeFacts GenGlobals GenTag.
Local Open Scope string_scope.
Local Open Scope list_scope.

(** *** Specification *)

(** What Go has as maps. *)
Definition proper (p : prop) : Prop :=
  NoDup (map fst (q_exts p)) /\ forall k m, In (k, EMap m) (q_exts p) -> NoDup (map fst m).

(** The tag of its own that a field is asked to have: one of a map of texts only. *)
Definition extra (p : prop) (k v : string) : Prop :=
  exists m, In ("x-oapi-codegen-extra-tags", EMap m) (q_exts p) /\ (forall n e, In (n, e) m -> exists s, e = EStr s) /\ In (k, EStr v) m.
Definition hidden (p : prop) : Prop := In ("x-go-json-ignore", EBool true) (q_exts p).
(** Written even if empty. *)
Definition always (noptr : bool) (p : prop) : Prop :=
  (q_req p = true /\ q_ro p = false /\ q_wo p = false) \/ q_null p = true \/ In ("x-omitempty", EBool false) (q_exts p) \/
  (q_req p = true /\ q_ro p = true /\ noptr = true).
Inductive wants (noptr : bool) (p : prop) (k v : string) : Prop :=
| wants_extra : extra p k v -> wants noptr p k v
| wants_hidden : (forall w, ~ extra p k w) -> hidden p -> k = "json" -> v = "-" -> wants noptr p k v
| wants_always : (forall w, ~ extra p k w) -> ~ (k = "json" /\ hidden p) -> k = "json" \/ (k = "form" /\ q_form p = true) ->
    always noptr p -> v = q_json p -> wants noptr p k v
| wants_omit : (forall w, ~ extra p k w) -> ~ (k = "json" /\ hidden p) -> k = "json" \/ (k = "form" /\ q_form p = true) ->
    ~ always noptr p -> q_decl p <> "" -> v = (q_json p ++ ",omitempty")%string -> wants noptr p k v.

(** A text an extension gives, or another. *)
Definition text_or (p : prop) (k d t : string) : Prop :=
  In (k, EStr t) (q_exts p) \/ ((forall s, ~ In (k, EStr s) (q_exts p)) /\ t = d).

Definition pointer (noptr : bool) (p : prop) : bool :=
  negb (q_skip p) && negb (String.eqb (q_decl p) "") &&
  negb (q_req p && negb (q_null p) && negb (q_wo p) && (negb (q_ro p) || noptr)).

(** Tags as they are written. *)
Definition tags_written (kvs : list (string * string)) : string :=
  match kvs with
  | [] => ""
  | _ => ("`" ++ String.concat " " (map (fun kv => fst kv ++ ":""" ++ snd kv ++ """")%string kvs) ++ "`")%string
  end.

(** How Go reads tags ([reflect.StructTag.Lookup]): pairs of a key and a quoted
    value, with spaces between them. Of values other than printable ASCII without
    backslashes nothing is said. *)
Definition key_char (c : ascii) : bool :=
  ((32 <? N_of_ascii c)%N && negb (Ascii.eqb c ":") && negb (Ascii.eqb c """") && negb (N_of_ascii c =? 127)%N).
Definition value_char (c : ascii) : bool :=
  ((32 <=? N_of_ascii c) && (N_of_ascii c <=? 126))%N && negb (Ascii.eqb c """") && negb (Ascii.eqb c "\").
Fixpoint all_chars (f : ascii -> bool) (s : string) : bool :=
  match s with "" => true | String c r => f c && all_chars f r end.
Fixpoint skip_spaces (s : string) : string :=
  match s with String c r => if Ascii.eqb c " " then skip_spaces r else s | "" => "" end.
Fixpoint scan_key (s : string) : string * string :=
  match s with
  | String c r => if key_char c then let '(k, t) := scan_key r in (String c k, t) else ("", s)
  | "" => ("", "")
  end.
Fixpoint scan_value (s : string) : option (string * string) :=
  match s with
  | "" => None
  | String c r =>
      if Ascii.eqb c """" then Some ("", r)
      else if Ascii.eqb c "\" then
        match r with
        | "" => None
        | String d r' => match scan_value r' with None => None | Some (v, t) => Some (String c (String d v), t) end
        end
      else match scan_value r with None => None | Some (v, t) => Some (String c v, t) end
  end.
Fixpoint lookup_loop (fuel : nat) (tag key : string) : option string :=
  match fuel with
  | O => None
  | S f =>
      let '(name, r) := scan_key (skip_spaces tag) in
      match name, r with
      | String _ _, String c (String d q) =>
          if Ascii.eqb c ":" && Ascii.eqb d """" then
            match scan_value q with
            | None => None
            | Some (v, t) =>
                if String.eqb name key then if all_chars value_char v then Some v else None
                else lookup_loop f t key
            end
          else None
      | _, _ => None
      end
  end.
Definition tag_lookup (tag key : string) : option string := lookup_loop (S (String.length tag)) tag key.

(** *** Maps *)

Lemma in_put k v m k' v' : In (k', v') (put k v m) <-> (k' = k /\ v' = v) \/ (k' <> k /\ In (k', v') m).
Proof.
  unfold put. cbn [In]. rewrite filter_In. cbn [fst]. split.
  - intros [E|[H D]]; [injection E as -> ->; left; split; reflexivity|]. right. split; [|exact H]. intros ->.
    rewrite String.eqb_refl in D. discriminate D.
  - intros [[-> ->]|[D H]]; [left; reflexivity|]. right. split; [exact H|]. destruct (String.eqb_spec k' k); [contradiction|reflexivity].
Qed.
Lemma nodup_filter {A} (f : string * A -> bool) m : NoDup (map fst m) -> NoDup (map fst (filter f m)).
Proof.
  induction m as [|x m IH]; intros N; [constructor|]. inversion N as [|? ? H N']; subst. cbn [filter]. destruct (f x); [|exact (IH N')].
  cbn [map]. constructor; [|exact (IH N')]. intros I. apply H. apply in_map_iff in I as (y & E & I). apply filter_In in I as [I _].
  rewrite <- E. apply in_map, I.
Qed.
Lemma nodup_put k v m : NoDup (map fst m) -> NoDup (map fst (put k v m)).
Proof.
  intros N. unfold put. cbn [map fst]. constructor; [|apply nodup_filter, N]. intros I. apply in_map_iff in I as ([a b] & E & I).
  cbn in E. subst a. apply filter_In in I as [_ I]. cbn [fst] in I. rewrite String.eqb_refl in I. discriminate I.
Qed.
Lemma fold_put l : forall m, NoDup (map fst l) -> NoDup (map fst m) ->
  NoDup (map fst (fold_left (fun m kv => put (fst kv) (snd kv) m) l m)) /\
  forall k v, In (k, v) (fold_left (fun m kv => put (fst kv) (snd kv) m) l m)
    <-> In (k, v) l \/ ((forall w, ~ In (k, w) l) /\ In (k, v) m).
Proof.
  induction l as [|[a b] l IH]; intros m Nl Nm; cbn [fold_left fst snd].
  - split; [exact Nm|]. intros k v. split; [intros H; right; split; [intros w []|exact H]|intros [[]|[_ H]]; exact H].
  - inversion Nl as [|? ? H Nl']; subst. destruct (IH (put a b m) Nl' (nodup_put a b m Nm)) as [N I]. split; [exact N|].
    intros k v. rewrite I, in_put. cbn [In]. split.
    + intros [K|[K [[-> ->]|[D K2]]]]; [left; right; exact K|left; left; reflexivity|]. right. split; [|exact K2].
      intros w [E|E]; [injection E as E _; congruence|exact (K w E)].
    + intros [[E|K]|[K1 K2]].
      * injection E as -> ->. right. split; [|left; split; reflexivity]. intros w E. apply H. change k with (fst (k, w)). apply in_map, E.
      * left. exact K.
      * right. split; [intros w E; apply (K1 w); right; exact E|]. right. split; [|exact K2]. intros ->. apply (K1 b). left. reflexivity.
Qed.
Lemma insert_perm {A} (x : string * A) l : Permutation (insert x l) (x :: l).
Proof.
  induction l as [|y r IH]; [reflexivity|]. cbn [insert]. destruct (str_leb (fst x) (fst y)); [reflexivity|].
  rewrite IH. apply perm_swap.
Qed.
Lemma by_key_perm {A} (l : list (string * A)) : Permutation (by_key l) l.
Proof. induction l as [|x l IH]; [reflexivity|]. cbn [by_key fold_right]. rewrite insert_perm. apply perm_skip, IH. Qed.
Lemma by_key_nodup {A} (l : list (string * A)) : NoDup (map fst l) -> NoDup (map fst (by_key l)).
Proof. intros N. eapply Permutation_NoDup; [|exact N]. apply Permutation_map, Permutation_sym, by_key_perm. Qed.

Lemma get_in {A} k (l : list (string * A)) : NoDup (map fst l) -> forall a, get k l = Some a <-> In (k, a) l.
Proof.
  induction l as [|[n b] l IH]; intros N a; [split; [discriminate|intros []]|]. inversion N as [|? ? H N']; subst. cbn [get In].
  destruct (String.eqb_spec n k) as [->|D].
  - split; [intros [= ->]; left; reflexivity|]. intros [E|I]; [injection E as ->; reflexivity|]. destruct H. change k with (fst (k, a)). apply in_map, I.
  - rewrite (IH N'). split; [right; assumption|]. intros [E|I]; [injection E as E _; contradiction|exact I].
Qed.

(** *** Extensions *)

Lemma given_in {A} parse k p : NoDup (map fst (q_exts p)) -> forall a : A,
  given parse k p = Some a <-> exists e, In (k, e) (q_exts p) /\ parse e = Some a.
Proof.
  intros N a. unfold given. destruct (get k (q_exts p)) as [e|] eqn:G.
  - apply (get_in k _ N) in G. split; [intros H; exists e; split; assumption|]. intros (e' & I & H).
    apply (get_in k _ N) in G, I. congruence.
  - split; [discriminate|]. intros (e & I & _). apply (get_in k _ N) in I. congruence.
Qed.
Lemma given_text k p : NoDup (map fst (q_exts p)) -> forall t, given extString k p = Some t <-> In (k, EStr t) (q_exts p).
Proof.
  intros N t. rewrite (given_in _ _ _ N). split.
  - intros (e & I & H). destruct e; try discriminate H. injection H as ->. exact I.
  - intros I. exists (EStr t). split; [exact I|reflexivity].
Qed.
Lemma given_flag k p : NoDup (map fst (q_exts p)) -> forall t, given extBool k p = Some t <-> In (k, EBool t) (q_exts p).
Proof.
  intros N t. rewrite (given_in _ _ _ N). split.
  - intros (e & I & H). destruct e; try discriminate H. injection H as ->. exact I.
  - intros I. exists (EBool t). split; [exact I|reflexivity].
Qed.
Lemma text_given k d p : NoDup (map fst (q_exts p)) -> text_or p k d (given_or extString k d p).
Proof.
  intros N. unfold given_or, text_or. destruct (given extString k p) as [t|] eqn:G; [left; apply given_text; assumption|].
  right. split; [|reflexivity]. intros s I. apply (given_text k p N) in I. congruence.
Qed.
Lemma text_fun k d p : NoDup (map fst (q_exts p)) -> forall t, text_or p k d t -> t = given_or extString k d p.
Proof.
  intros N t [I|[H ->]]; unfold given_or.
  - apply (given_text k p N) in I. rewrite I. reflexivity.
  - destruct (given extString k p) as [s|] eqn:G; [|reflexivity]. apply (given_text k p N) in G. destruct (H s G).
Qed.
Lemma flag_given k d p : NoDup (map fst (q_exts p)) ->
  given_or extBool k d p = negb d <-> In (k, EBool (negb d)) (q_exts p).
Proof.
  intros N. unfold given_or. rewrite <- (given_flag k p N). destruct (given extBool k p) as [b|].
  - split; [intros ->; reflexivity|intros [= ->]; reflexivity].
  - split; [destruct d; discriminate|discriminate].
Qed.

Lemma extra_loop_some l m : extra_loop l = Some m -> map fst m = map fst l /\ (forall n e, In (n, e) l -> exists s, e = EStr s) /\
  forall k v, In (k, v) m <-> In (k, EStr v) l.
Proof.
  revert m. induction l as [|[k e] l IH]; intros m; cbn [extra_loop]; [intros [= <-]; repeat split; intros; contradiction|].
  destruct e; try discriminate. cbn [extString]. destruct (extra_loop l) as [r|]; [|discriminate]. intros [= <-].
  destruct (IH r eq_refl) as (E & H & I). split; [cbn; rewrite E; reflexivity|]. split.
  - intros n e [X|X]; [injection X as <- <-; exists s; reflexivity|exact (H n e X)].
  - intros k' v. cbn [In]. rewrite I. split; intros [X|X]; try (right; exact X); left; congruence.
Qed.
Lemma extra_loop_none l : extra_loop l = None -> exists n e, In (n, e) l /\ forall s, e <> EStr s.
Proof.
  induction l as [|[k e] l IH]; cbn [extra_loop]; [discriminate|]. destruct (extString e) as [s|] eqn:E.
  - destruct (extra_loop l); [discriminate|]. intros _. destruct (IH eq_refl) as (n & x & I & H). exists n, x. split; [right; exact I|exact H].
  - intros _. exists k, e. split; [left; reflexivity|]. intros s ->. discriminate E.
Qed.

Section Exact.
Variable u : unicode.
Variable noptr : bool.

Lemma typeDef_eq p : typeDef noptr p = ((if pointer noptr p then "*" else "") ++ q_decl p)%string.
Proof.
  unfold typeDef, pointer. destruct (String.eqb_spec (q_decl p) "") as [->|D].
  - destruct (q_skip p), (q_req p), (q_null p), (q_ro p), (q_wo p), noptr; reflexivity.
  - destruct (q_skip p), (q_req p), (q_null p), (q_ro p), (q_wo p), noptr; reflexivity.
Qed.

Lemma typeDef_nil p : String.eqb (typeDef noptr p) "" = String.eqb (q_decl p) "".
Proof.
  rewrite typeDef_eq. unfold pointer. destruct (String.eqb_spec (q_decl p) "") as [->|D].
  - rewrite andb_false_r. reflexivity.
  - destruct (negb (q_skip p) && _ && _); cbn [append]; [reflexivity|]. destruct (String.eqb_spec (q_decl p) ""); [contradiction|reflexivity].
Qed.

Definition alwaysb (p : prop) : bool :=
  (q_req p && negb (q_ro p) && negb (q_wo p)) || q_null p || negb (given_or extBool "x-omitempty" true p) || (q_req p && q_ro p && noptr).
Lemma always_iff p : NoDup (map fst (q_exts p)) -> alwaysb p = true <-> always noptr p.
Proof.
  intros N. unfold alwaysb, always. rewrite !orb_true_iff, !andb_true_iff, !negb_true_iff.
  change false with (negb true) at 3. rewrite (flag_given "x-omitempty" true p N). cbn [negb]. tauto.
Qed.

Lemma json_tags_in p : NoDup (map fst (q_exts p)) -> NoDup (map fst (json_tags noptr p)) /\
  forall k v, In (k, v) (json_tags noptr p) <->
    (k = "json" \/ (k = "form" /\ q_form p = true)) /\
    ((always noptr p /\ v = q_json p) \/ (~ always noptr p /\ q_decl p <> "" /\ v = (q_json p ++ ",omitempty")%string)).
Proof.
  intros N. unfold json_tags. fold (alwaysb p). rewrite typeDef_nil. assert (A := always_iff p N).
  assert (B : forall w k v, In (k, v) (let m := put "json" w [] in if q_form p then put "form" w m else m) <->
     (k = "json" \/ (k = "form" /\ q_form p = true)) /\ v = w).
  { intros w k v. cbn zeta. destruct (q_form p).
    - rewrite !in_put. cbn [In]. split.
      + intros [[-> ->]|[_ [[-> ->]|[_ []]]]]; (split; [|reflexivity]); [right; split; reflexivity|left; reflexivity].
      + intros [[->|[-> _]] ->]; [right; split; [discriminate|left; split; reflexivity]|left; split; reflexivity].
    - rewrite in_put. cbn [In]. split.
      + intros [[-> ->]|[_ []]]. split; [left|]; reflexivity.
      + intros [[->|[_ E]] ->]; [left; split; reflexivity|discriminate E]. }
  assert (D : forall w, NoDup (map fst (let m := put "json" w [] in if q_form p then put "form" w m else m))).
  { intros w. cbn zeta. destruct (q_form p); repeat apply nodup_put; constructor. }
  destruct (alwaysb p).
  - split; [apply D|]. intros k v. rewrite B. assert (H : always noptr p) by (apply A; reflexivity). tauto.
  - assert (H : ~ always noptr p) by (intros X; apply A in X; discriminate X).
    destruct (String.eqb_spec (q_decl p) "") as [E|E]; cbn [negb].
    + split; [constructor|]. intros k v. cbn [In]. tauto.
    + split; [apply D|]. intros k v. rewrite B. tauto.
Qed.

Lemma fieldTags_in p : proper p -> NoDup (map fst (fieldTags noptr p)) /\
  forall k v, In (k, v) (fieldTags noptr p) <-> wants noptr p k v.
Proof.
  intros [N NM]. destruct (json_tags_in p N) as [J1 J2].
  assert (H : NoDup (map fst (ignored_tags p (json_tags noptr p))) /\ forall k v, In (k, v) (ignored_tags p (json_tags noptr p)) <->
    (hidden p /\ k = "json" /\ v = "-") \/ (~ (k = "json" /\ hidden p) /\ In (k, v) (json_tags noptr p))).
  { unfold ignored_tags. assert (G := flag_given "x-go-json-ignore" false p N). cbn [negb] in G. fold (hidden p) in G.
    destruct (given_or extBool "x-go-json-ignore" false p).
    - assert (Hd : hidden p) by (apply G; reflexivity). split; [apply nodup_put, J1|]. intros k v. rewrite in_put. tauto.
    - assert (Hd : ~ hidden p) by (intros X; apply G in X; discriminate X). split; [exact J1|]. intros k v. tauto. }
  destruct H as [H1 H2]. unfold fieldTags, extra_tags.
  assert (W : forall k v, wants noptr p k v <-> extra p k v \/ ((forall w, ~ extra p k w) /\ In (k, v) (ignored_tags p (json_tags noptr p)))).
  { intros k v. rewrite H2, J2. split.
    - intros [E|X Hd -> ->|X Nh K A ->|X Nh K A D ->]; [left; exact E|right; split; [exact X|]..]; tauto.
    - intros [E|[X [(Hd & -> & ->)|(Nh & K & [[A ->]|(A & D & ->)])]]].
      + apply wants_extra, E.
      + apply wants_hidden; auto.
      + apply wants_always; auto.
      + apply wants_omit; auto. }
  destruct (given extExtraTags "x-oapi-codegen-extra-tags" p) as [tags|] eqn:G.
  - apply (given_in _ _ _ N) in G as (e & I & P). destruct e as [| | |l|]; try discriminate P. cbn [extExtraTags] in P.
    destruct (extra_loop_some l tags P) as (E & T & IT). assert (ND := NM _ _ I).
    assert (Ex : forall k v, extra p k v <-> In (k, v) tags).
    { intros k v. rewrite IT. split; [|intros X; exists l; repeat split; assumption]. intros (l' & I' & _ & X).
      assert (l' = l); [|subst; exact X]. apply (get_in _ _ N) in I, I'. congruence. }
    destruct (fold_put (by_key tags) (ignored_tags p (json_tags noptr p))) as [F1 F2]; [apply by_key_nodup; rewrite E; exact ND|exact H1|].
    split; [exact F1|]. intros k v. rewrite F2, W. rewrite by_key_in, Ex.
    assert (Q : (forall w, ~ In (k, w) (by_key tags)) <-> (forall w, ~ extra p k w)).
    { split; intros X w; specialize (X w); rewrite ?Ex, ?by_key_in in *; exact X. }
    rewrite Q. reflexivity.
  - split; [exact H1|]. intros k v. rewrite W.
    assert (Nx : forall w, ~ extra p k w).
    { intros w (l & I & T & X). destruct (extra_loop l) as [m|] eqn:P.
      - assert (Z : given extExtraTags "x-oapi-codegen-extra-tags" p = Some m) by (apply (given_in _ _ _ N); exists (EMap l); split; assumption).
        congruence.
      - apply extra_loop_none in P as (n & e & Ie & D). destruct (T n e Ie) as [s ->]. exact (D s eq_refl). }
    split; [intros X; right; split; assumption|]. intros [X|[_ X]]; [destruct (Nx v X)|exact X].
Qed.

Lemma join_concat sep l : join sep l = String.concat sep l.
Proof. induction l as [|a [|b l] IH]; [reflexivity|reflexivity|]. change (a ++ sep ++ join sep (b :: l) = a ++ sep ++ String.concat sep (b :: l))%string. rewrite IH. reflexivity. Qed.

Lemma tag_text_eq m : tag_text m = tags_written (by_key m).
Proof.
  unfold tag_text, tags_written. destruct m as [|x m]; [reflexivity|]. destruct (by_key_ne x m) as (y & r & E). rewrite E.
  rewrite join_concat. reflexivity.
Qed.

Lemma tagged_exact first p : proper p -> exists kvs name why,
  sorted (map fst kvs) /\ NoDup (map fst kvs) /\ (forall k v, In (k, v) kvs <-> wants noptr p k v) /\
  text_or p "x-go-name" (schemaNameToTypeName u (q_json p)) name /\ text_or p "x-deprecated-reason" "" why /\
  genTagged u noptr first p =
    ((if String.eqb (q_desc p) "" then ""
      else (if first then "" else newline) ++ stringWithTypeNameToGoComment (q_desc p) (schemaNameToTypeName u (q_json p)) ++ newline)
     ++ (if q_dep p then deprecationComment why ++ newline else "")
     ++ "    " ++ name ++ " " ++ ((if pointer noptr p then "*" else "") ++ q_decl p) ++ tags_written kvs)%string.
Proof.
  intros P. destruct (fieldTags_in p P) as [F1 F2]. destruct P as [N NM].
  exists (by_key (fieldTags noptr p)), (given_or extString "x-go-name" (schemaNameToTypeName u (q_json p)) p), (given_or extString "x-deprecated-reason" "" p).
  split; [apply by_key_sorted|]. split; [apply by_key_nodup, F1|]. split; [intros k v; rewrite by_key_in; apply F2|].
  split; [apply text_given, N|]. split; [apply text_given, N|]. unfold genTagged. rewrite typeDef_eq, tag_text_eq. reflexivity.
Qed.
End Exact.
