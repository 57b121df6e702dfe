(** Reading tags back, orders of maps, and cases for [GenTag.v]. *)
From Coq Require Import Permutation.
From Verif Require Import Prelude Strings Version GenName GenNameProofs GenType GenTypeProofs GenTypeFacts GenGlobals GenTag GenTagProofs.
Local Open Scope string_scope.
Local Open Scope list_scope.

(** *** Orders *)

Lemma leb_anti a : forall b, str_leb a b = true -> str_leb b a = true -> a = b.
Proof.
  induction a as [|c a IH]; intros [|d b]; cbn [str_leb]; try reflexivity; try discriminate.
  destruct (Ascii.eqb_spec c d) as [->|D].
  - rewrite Ascii.eqb_refl. intros H1 H2. rewrite (IH b H1 H2). reflexivity.
  - destruct (Ascii.eqb_spec d c) as [E|_]; [congruence|]. intros H1 H2. apply N.leb_le in H1, H2. destruct D.
    rewrite <- (ascii_N_embedding c), <- (ascii_N_embedding d). f_equal. lia.
Qed.

Lemma sorted_same (l : list (string * string)) : forall k, sorted (map fst l) -> sorted (map fst k) -> NoDup (map fst l) -> NoDup (map fst k) ->
  (forall a b, In (a, b) l <-> In (a, b) k) -> l = k.
Proof.
  induction l as [|[a b] l IH]; intros [|[c d] k] Sl Sk Nl Nk H.
  - reflexivity.
  - destruct (proj2 (H c d) (or_introl eq_refl)).
  - destruct (proj1 (H a b) (or_introl eq_refl)).
  - cbn [map fst] in *. inversion Sl as [|? ? A1 A2]; subst. inversion Sk as [|? ? B1 B2]; subst.
    inversion Nl as [|? ? C1 C2]; subst. inversion Nk as [|? ? D1 D2]; subst.
    assert (E : (a, b) = (c, d)).
    { destruct (proj1 (H a b) (or_introl eq_refl)) as [E|I]; [congruence|]. destruct (proj2 (H c d) (or_introl eq_refl)) as [E|J]; [exact E|].
      assert (I' := in_map fst _ _ I). assert (J' := in_map fst _ _ J). cbn in I', J'. assert (X := leb_anti a c (A1 c J') (B1 a I')). subst c.
      contradiction. }
    injection E as <- <-. f_equal. apply IH; try assumption. intros x y. split; intros I.
    + destruct (proj1 (H x y) (or_intror I)) as [E|J]; [|exact J]. injection E as <- <-. destruct C1. exact (in_map fst _ _ I).
    + destruct (proj2 (H x y) (or_intror I)) as [E|J]; [|exact J]. injection E as <- <-. destruct D1. exact (in_map fst _ _ I).
Qed.

(** The same value, its maps perhaps ranged over in another order. *)
Inductive same_ext : ext -> ext -> Prop :=
| same_refl e : same_ext e e
| same_map m m' : Permutation m m' -> same_ext (EMap m) (EMap m').
Definition same_exts (a b : list (string * ext)) : Prop :=
  exists l, Permutation a l /\ Forall2 (fun x y => fst x = fst y /\ same_ext (snd x) (snd y)) l b.
Definition with_exts (p : prop) (x : list (string * ext)) : prop :=
  mkProp (q_json p) (q_desc p) (q_decl p) (q_skip p) (q_req p) (q_null p) (q_ro p) (q_wo p) (q_form p) (q_dep p) x.

Lemma same_in a b : same_exts a b -> forall k e, In (k, e) b -> exists e', In (k, e') a /\ same_ext e' e.
Proof.
  intros (l & P & F) k e I. assert (X : exists e', In (k, e') l /\ same_ext e' e).
  { clear P. induction F as [|[x1 x2] [y1 y2] l b [E1 E2] F IH]; [destruct I|]. cbn [fst snd] in *. destruct I as [E|I].
    - injection E as -> ->. subst x1. exists x2. split; [left; reflexivity|exact E2].
    - destruct (IH I) as (e' & J & Q). exists e'. split; [right; exact J|exact Q]. }
  destruct X as (e' & J & Q). exists e'. split; [|exact Q]. eapply Permutation_in; [apply Permutation_sym, P|exact J].
Qed.
Lemma same_in' a b : same_exts a b -> forall k e, In (k, e) a -> exists e', In (k, e') b /\ same_ext e e'.
Proof.
  intros (l & P & F) k e I. assert (J := Permutation_in _ P I). clear P I.
  induction F as [|[x1 x2] [y1 y2] l b [E1 E2] F IH]; [destruct J|]. cbn [fst snd] in *. destruct J as [E|I].
  - injection E as -> ->. subst y1. exists y2. split; [left; reflexivity|exact E2].
  - destruct (IH I) as (e' & J & Q). exists e'. split; [right; exact J|exact Q].
Qed.
Lemma same_keys a b : same_exts a b -> NoDup (map fst a) -> NoDup (map fst b).
Proof.
  intros (l & P & F) N. assert (M := Permutation_NoDup (Permutation_map fst P) N).
  replace (map fst b) with (map fst l); [exact M|]. clear - F. induction F as [|x y l b [E _] F IH]; [reflexivity|]. cbn. rewrite E, IH. reflexivity.
Qed.

Section Order.
Variable p : prop.
Variable x : list (string * ext).
Hypothesis P : proper p.
Hypothesis Same : same_exts (q_exts p) x.

Lemma proper_same : proper (with_exts p x).
Proof.
  destruct P as [N NM]. split; cbn [with_exts q_exts]; [exact (same_keys _ _ Same N)|]. intros k m I.
  destruct (same_in _ _ Same _ _ I) as (e & J & Q). inversion Q as [|m0 m' Pm]; subst; [exact (NM _ _ J)|].
  apply (Permutation_NoDup (Permutation_map fst Pm)). exact (NM _ _ J).
Qed.
Lemma atom_same k e : (forall m, e <> EMap m) -> In (k, e) (q_exts p) <-> In (k, e) x.
Proof.
  intros D. split; intros I.
  - destruct (same_in' _ _ Same _ _ I) as (e' & J & Q). inversion Q; subst; [exact J|]. exfalso. eapply D. reflexivity.
  - destruct (same_in _ _ Same _ _ I) as (e' & J & Q). inversion Q; subst; [exact J|]. exfalso. eapply D. reflexivity.
Qed.
Lemma extra_same k v : extra p k v <-> extra (with_exts p x) k v.
Proof.
  split; intros (m & I & T & J); cbn [with_exts q_exts] in *.
  - destruct (same_in' _ _ Same _ _ I) as (e' & I' & Q). inversion Q as [|m0 m' Pm]; subst; [exists m; auto|]. exists m'. split; [exact I'|].
    split; [|exact (Permutation_in _ Pm J)]. intros n e Z. apply (T n e). exact (Permutation_in _ (Permutation_sym Pm) Z).
  - destruct (same_in _ _ Same _ _ I) as (e' & I' & Q). inversion Q as [|m0 m' Pm]; subst; [exists m; auto|]. exists m0. split; [exact I'|].
    split; [|exact (Permutation_in _ (Permutation_sym Pm) J)]. intros n e Z. apply (T n e). exact (Permutation_in _ Pm Z).
Qed.
Lemma wants_same noptr k v : wants noptr p k v <-> wants noptr (with_exts p x) k v.
Proof.
  assert (E := extra_same). assert (Hd : hidden p <-> hidden (with_exts p x)) by (apply atom_same; discriminate).
  assert (A : always noptr p <-> always noptr (with_exts p x)).
  { unfold always. cbn [with_exts q_req q_ro q_wo q_null q_exts]. rewrite (atom_same "x-omitempty" (EBool false)) by discriminate. reflexivity. }
  split.
  - intros [X|X H -> ->|X Nh K Al ->|X Nh K Al D ->].
    + apply wants_extra. apply E, X.
    + apply wants_hidden; try reflexivity; [intros w Z; apply (X w), E, Z|apply Hd, H].
    + apply wants_always; try reflexivity; try assumption; [intros w Z; apply (X w), E, Z|rewrite <- Hd; exact Nh|apply A, Al].
    + apply wants_omit; try reflexivity; try assumption; [intros w Z; apply (X w), E, Z|rewrite <- Hd; exact Nh|rewrite <- A; exact Al].
  - intros [X|X H -> ->|X Nh K Al ->|X Nh K Al D ->].
    + apply wants_extra. apply E, X.
    + apply wants_hidden; try reflexivity; [intros w Z; apply (X w), E, Z|apply Hd, H].
    + apply wants_always; try reflexivity; try assumption; [intros w Z; apply (X w), E, Z|rewrite Hd; exact Nh|apply A, Al].
    + apply wants_omit; try reflexivity; try assumption; [intros w Z; apply (X w), E, Z|rewrite Hd; exact Nh|rewrite A; exact Al].
Qed.
Lemma text_same k d : given_or extString k d p = given_or extString k d (with_exts p x).
Proof.
  apply text_fun; [exact (proj1 proper_same)|]. destruct (text_given k d p (proj1 P)) as [I|[H ->]].
  - left. apply (atom_same k (EStr _)); [discriminate|exact I].
  - right. split; [|reflexivity]. intros s I. apply (H s). apply (atom_same k (EStr s)); [discriminate|exact I].
Qed.
Lemma order_same u noptr first : genTagged u noptr first (with_exts p x) = genTagged u noptr first p.
Proof.
  destruct (fieldTags_in noptr p P) as [F1 F2]. destruct (fieldTags_in noptr (with_exts p x) proper_same) as [G1 G2].
  assert (E : by_key (fieldTags noptr (with_exts p x)) = by_key (fieldTags noptr p)).
  { apply sorted_same; try apply by_key_sorted; try (apply by_key_nodup; assumption). intros a b. rewrite !by_key_in, F2, G2. symmetry. apply wants_same. }
  unfold genTagged. rewrite !tag_text_eq, E, <- !text_same. reflexivity.
Qed.
End Order.

(** *** Reading back *)

Definition good_key (k : string) : Prop := k <> "" /\ all_chars key_char k = true.

Lemma scan_key_app k r : all_chars key_char k = true -> (match r with String c _ => key_char c = false | "" => True end) ->
  scan_key (k ++ r) = (k, r).
Proof.
  induction k as [|c k IH]; intros A B.
  - cbn [append]. destruct r as [|c r]; [reflexivity|]. cbn [scan_key]. rewrite B. reflexivity.
  - cbn [all_chars] in A. apply andb_true_iff in A as [A1 A2]. cbn [append scan_key]. rewrite A1, (IH A2 B). reflexivity.
Qed.
Lemma scan_value_app v r : all_chars value_char v = true -> scan_value (v ++ String """" r) = Some (v, r).
Proof.
  induction v as [|c v IH]; intros A; [reflexivity|]. cbn [all_chars] in A. apply andb_true_iff in A as [A1 A2].
  cbn [append scan_value]. unfold value_char in A1. apply andb_true_iff in A1 as [A1 A3]. apply andb_true_iff in A1 as [_ A1].
  apply negb_true_iff in A1, A3. rewrite A1, A3, (IH A2). reflexivity.
Qed.
Lemma key_no_space c : key_char c = true -> Ascii.eqb c " " = false.
Proof. intros H. destruct (Ascii.eqb_spec c " ") as [->|]; [discriminate H|reflexivity]. Qed.
Lemma skip_key k r : good_key k -> skip_spaces (k ++ r) = (k ++ r)%string.
Proof.
  intros [D A]. destruct k as [|c k]; [contradiction|]. cbn [all_chars] in A. apply andb_true_iff in A as [A _]. cbn [append skip_spaces].
  rewrite (key_no_space c A). reflexivity.
Qed.

Lemma lookup_step f k v r key : good_key k -> all_chars value_char v = true ->
  lookup_loop (S f) ((k ++ ":""" ++ v ++ """") ++ r) key = if String.eqb k key then Some v else lookup_loop f r key.
Proof.
  intros K V. cbn [lookup_loop]. rewrite GenNameProofs.str_app_assoc, (skip_key k _ K).
  rewrite scan_key_app by (try exact (proj2 K); reflexivity).
  change ((":""" ++ v ++ """") ++ r)%string with (String ":" (String """" ((v ++ """") ++ r))).
  destruct K as [D _]. destruct k as [|c k]; [contradiction|]. cbn [Ascii.eqb Bool.eqb andb].
  rewrite GenNameProofs.str_app_assoc. change ("""" ++ r)%string with (String """" r). rewrite (scan_value_app v r V).
  destruct (String.eqb (String c k) key); [rewrite V; reflexivity|reflexivity].
Qed.
Lemma lookup_space f r key : lookup_loop f (String " " r) key = lookup_loop f r key.
Proof. destruct f; reflexivity. Qed.

Fixpoint assoc (k : string) (l : list (string * string)) : option string :=
  match l with [] => None | (a, b) :: r => if String.eqb a k then Some b else assoc k r end.

Lemma lookup_written kvs key : forall f, length kvs < f -> (forall k v, In (k, v) kvs -> good_key k /\ all_chars value_char v = true) ->
  lookup_loop f (String.concat " " (map (fun kv => fst kv ++ ":""" ++ snd kv ++ """")%string kvs)) key = assoc key kvs.
Proof.
  induction kvs as [|[k v] kvs IH]; intros f L G.
  - destruct f; reflexivity.
  - destruct f as [|f]; [inversion L|]. destruct (G k v (or_introl eq_refl)) as [K V]. cbn [length] in L.
    destruct kvs as [|kv kvs].
    + cbn [map String.concat fst snd assoc]. rewrite <- (str_app_nil (k ++ ":""" ++ v ++ """")), (lookup_step f k v "" key K V).
      destruct (String.eqb k key); [reflexivity|]. destruct f; reflexivity.
    + set (g := fun kv : string * string => (fst kv ++ ":""" ++ snd kv ++ """")%string) in *.
      change (lookup_loop (S f) ((k ++ ":""" ++ v ++ """") ++ String " " (String.concat " " (map g (kv :: kvs))))%string key
        = assoc key ((k, v) :: kv :: kvs)).
      rewrite (lookup_step f k v _ key K V). cbn [assoc]. destruct (String.eqb k key); [reflexivity|]. rewrite lookup_space.
      apply IH; [cbn [length] in *; lia|]. intros a b I. apply G. right. exact I.
Qed.
Lemma assoc_in l : NoDup (map fst l) -> forall k v, assoc k l = Some v <-> In (k, v) l.
Proof.
  induction l as [|[a b] l IH]; intros N k v; [split; [discriminate|intros []]|]. inversion N as [|? ? H N']; subst. cbn [assoc In].
  destruct (String.eqb_spec a k) as [->|D].
  - split; [intros [= ->]; left; reflexivity|]. intros [E|I]; [injection E as ->; reflexivity|]. destruct H. exact (in_map fst _ _ I).
  - rewrite (IH N'). split; [right; assumption|]. intros [E|I]; [injection E as E _; contradiction|exact I].
Qed.
Lemma concat_long (g : string * string -> string) l : (forall x, In x l -> 1 <= String.length (g x)) ->
  length l <= String.length (String.concat " " (map g l)).
Proof.
  assert (LA : forall a b, String.length (a ++ b) = String.length a + String.length b).
  { induction a as [|c a IH]; intros b; [reflexivity|]. cbn. rewrite IH. reflexivity. }
  induction l as [|x [|y l] IH]; intros H; [reflexivity|apply (H x); left; reflexivity|].
  change (String.concat " " (map g (x :: y :: l))) with (g x ++ " " ++ String.concat " " (map g (y :: l)))%string. rewrite !LA.
  assert (A := H x (or_introl eq_refl)). assert (B := IH (fun z I => H z (or_intror I))). cbn [length String.length] in *. lia.
Qed.

Lemma read_back u noptr first p : proper p ->
  (forall k v, wants noptr p k v -> good_key k /\ all_chars value_char v = true) ->
  exists head tags, genTagged u noptr first p = (head ++ (if String.eqb tags "" then "" else "`" ++ tags ++ "`"))%string /\
    forall k v, tag_lookup tags k = Some v <-> wants noptr p k v.
Proof.
  intros P G. destruct (tagged_exact u noptr first p P) as (kvs & name & why & S0 & N & I & _ & _ & E).
  assert (G' : forall k v, In (k, v) kvs -> good_key k /\ all_chars value_char v = true) by (intros k v X; apply G, I, X).
  rewrite <- !GenNameProofs.str_app_assoc in E. eexists. set (g := fun kv : string * string => (fst kv ++ ":""" ++ snd kv ++ """")%string).
  exists (String.concat " " (map g kvs)).
  assert (L : length kvs <= String.length (String.concat " " (map g kvs))).
  { apply concat_long. intros [k v] X. destruct (G' k v X) as [[D _] _]. unfold g. cbn [fst]. destruct k; [contradiction|cbn; lia]. }
  split.
  - rewrite E. f_equal. unfold tags_written. fold g. destruct kvs as [|kv kvs]; [reflexivity|].
    destruct (String.eqb_spec (String.concat " " (map g (kv :: kvs))) "") as [Z|_]; [|reflexivity]. rewrite Z in L. inversion L.
  - intros k v. unfold tag_lookup. rewrite lookup_written by (try lia; exact G'). rewrite (assoc_in _ N). apply I.
Qed.

(** *** Without extensions *)

Lemma tag_one v : tag_text (put "json" v []) = (backquote ++ "json:" ++ dquote ++ v ++ dquote ++ backquote)%string.
Proof.
  change (backquote ++ (("json:" ++ dquote ++ v ++ dquote) ++ backquote) = backquote ++ "json:" ++ dquote ++ v ++ dquote ++ backquote)%string.
  rewrite !GenNameProofs.str_app_assoc. reflexivity.
Qed.
Lemma as_before u first p g :
  genTagged u false first (mkProp (p_name p) (p_desc p) (typeDecl g) (g_skip g) (p_req p) (p_null p) (p_ro p) (p_wo p) false (p_dep p) [])
  = genField u first (p, g).
Proof.
  unfold genTagged, genField. cbn [q_json q_desc q_dep q_exts given_or given get].
  assert (T : typeDef false (mkProp (p_name p) (p_desc p) (typeDecl g) (g_skip g) (p_req p) (p_null p) (p_ro p) (p_wo p) false (p_dep p) [])
    = goTypeDef p g).
  { unfold typeDef, goTypeDef. cbn [q_skip q_req q_null q_ro q_wo q_decl negb]. rewrite orb_true_r, andb_true_r.
    destruct (String.eqb_spec (typeDecl g) "") as [->|]; reflexivity. }
  unfold given_or, given. cbn [q_exts get]. rewrite T. repeat (f_equal; []). unfold fieldTags, extra_tags, ignored_tags, json_tags, tag_of.
  unfold given_or, given. rewrite T. cbn [q_exts get q_req q_ro q_wo q_null q_json q_form negb].
  rewrite andb_false_r, !orb_false_r. destruct ((p_req p && negb (p_ro p) && negb (p_wo p)) || p_null p); [apply tag_one|].
  destruct (String.eqb (goTypeDef p g) ""); [reflexivity|apply tag_one].
Qed.

(** *** Cases *)

Definition case_prop (json : string) (x : list (string * ext)) : prop :=
  mkProp json "Says who." "string" false true false false false false false x.
Lemma case_proper json x : NoDup (map fst x) -> (forall k m, In (k, EMap m) x -> NoDup (map fst m)) -> proper (case_prop json x).
Proof. intros A B. split; assumption. Qed.

Lemma no_extra json x : (forall m, ~ In ("x-oapi-codegen-extra-tags", EMap m) x) -> forall k v, ~ extra (case_prop json x) k v.
Proof. intros H k v (m & I & _). exact (H m I). Qed.

Lemma quote_refuted u : exists p v head tags, proper p /\ wants false p "json" v /\
  genTagged u false true p = (head ++ "`" ++ tags ++ "`")%string /\ tag_lookup tags "json" = Some "a" /\ v <> "a".
Proof.
  exists (case_prop "a""b" []), "a""b". destruct (tagged_exact u false true (case_prop "a""b" [])) as (kvs & name & why & S0 & N & I & _ & _ & E).
  { apply case_proper; [constructor|intros k m []]. }
  assert (W : forall k v, wants false (case_prop "a""b" []) k v <-> k = "json" /\ v = "a""b").
  { assert (A : always false (case_prop "a""b" [])) by (left; repeat split). assert (X := no_extra "a""b" [] (fun m I => I)). intros k v. split.
    - intros [Y|Y H -> ->|Y Nh K Al ->|Y Nh K Al D ->]; [destruct (X _ _ Y)|destruct H| |contradiction].
      destruct K as [->|[_ K]]; [split; reflexivity|discriminate K].
    - intros [-> ->]. apply wants_always; [intros w; apply X|intros [_ []]|left; reflexivity|exact A|reflexivity]. }
  assert (Kv : kvs = [("json", "a""b")]).
  { apply sorted_same; try assumption; [constructor; [intros b []|constructor]|repeat constructor; intros []|].
    intros a b. rewrite I, W. cbn [In]. split; [intros [-> ->]; left; reflexivity|intros [Q|[]]; injection Q as <- <-; split; reflexivity]. }
  subst kvs. rewrite <- !GenNameProofs.str_app_assoc in E. eexists _, "json:""a""b""". split; [apply case_proper; [constructor|intros k m []]|].
  split; [apply W; split; reflexivity|]. split; [exact E|]. split; [reflexivity|discriminate].
Qed.

Lemma dropped_refuted : exists p m k s, proper p /\ In ("x-oapi-codegen-extra-tags", EMap m) (q_exts p) /\ In (k, EStr s) m /\
  forall v, ~ In (k, v) (fieldTags false p).
Proof.
  set (m := [("yaml", EStr "who"); ("validate", EBool true)]). set (x := [("x-oapi-codegen-extra-tags", EMap m)]).
  assert (P : proper (case_prop "who" x)).
  { apply case_proper; [repeat constructor; intros []|]. intros k m' [E|[]]. injection E as <- <-.
    constructor; [intros [E|[]]; discriminate E|repeat constructor; intros []]. }
  exists (case_prop "who" x), m, "yaml", "who". split; [exact P|]. split; [left; reflexivity|]. split; [left; reflexivity|]. intros v I.
  apply (fieldTags_in false _ P) in I. destruct I as [X|X H E _|X Nh [E|[E _]] _ _|X Nh [E|[E _]] _ _ _]; try discriminate E.
  destruct X as (m' & [E|[]] & T & _). injection E as <-. destruct (T "validate" (EBool true)) as [s E]; [right; left; reflexivity|discriminate E].
Qed.

Lemma fields_each u noptr ps : length (genFieldsFromProperties u noptr ps) = length ps /\
  forall i p, nth_error ps i = Some p -> nth_error (genFieldsFromProperties u noptr ps) i = Some (genTagged u noptr (Nat.eqb i 0) p).
Proof.
  destruct ps as [|q ps]; [split; [reflexivity|intros [|i] p H; discriminate H]|]. cbn [genFieldsFromProperties]. split.
  - cbn [length]. rewrite map_length. reflexivity.
  - intros [|i] p H; [injection H as ->; reflexivity|]. cbn [nth_error Nat.eqb] in *. apply map_nth_error, H.
Qed.
