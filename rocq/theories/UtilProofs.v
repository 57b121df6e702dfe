(** Proofs about paths, labels and overlays. *)
From Verif Require Import Prelude Strings Paths Util.
From Coq Require Import ZifyBool ZifyN ZifyNat.
Local Open Scope string_scope.
Local Open Scope list_scope.

(** *** Paths *)

(** Two paths that differ at most in optional marks. *)
Definition same_labels (p q : cpath) : Prop := map sel_label p = map sel_label q.

Lemma selEq_spec a b : selEq a b = true <-> sel_label a = sel_label b.
Proof.
  unfold selEq, sel_eqb, optional. cbn. destruct (String.eqb_spec (sel_label a) (sel_label b)) as [E|E]; cbn.
  - rewrite orb_true_r. tauto.
  - split; [discriminate|contradiction].
Qed.

Lemma sels_eq_spec p q : length p = length q -> (sels_eq p q = true <-> same_labels p q).
Proof.
  unfold same_labels. revert q. induction p as [|a p IH]; intros [|b q] H; cbn in *; try discriminate; [tauto|].
  injection H as H. destruct (selEq b a) eqn:E; cbn.
  - apply selEq_spec in E. rewrite (IH q H). split; [intros K; f_equal; auto|intros K; injection K; auto].
  - split; [discriminate|]. intros K. injection K as K _. symmetry in K. apply selEq_spec in K. congruence.
Qed.

Lemma pathsAreEq_spec p q : pathsAreEq p q = true <-> same_labels p q.
Proof.
  unfold pathsAreEq. destruct (Nat.eqb_spec (length p) (length q)) as [E|E]; cbn; [apply sels_eq_spec; exact E|].
  split; [discriminate|]. intros H. apply (f_equal (@length string)) in H. rewrite !map_length in H. contradiction.
Qed.

(** [p] is [q'] followed by [rest], where [q'] is [q] up to optional marks. *)
Definition begins (p q rest : cpath) : Prop := exists q', p = q' ++ rest /\ same_labels q' q.

Lemma begins_length p q rest : begins p q rest -> length p = length q + length rest.
Proof.
  intros [q' [-> H]]. apply (f_equal (@length string)) in H. rewrite !map_length in H. rewrite app_length. lia.
Qed.

Lemma begins_firstn p q : length q <= length p ->
  (same_labels (firstn (length q) p) q <-> exists rest, begins p q rest).
Proof.
  intros L. split.
  - intros H. exists (skipn (length q) p), (firstn (length q) p). split; [symmetry; apply firstn_skipn|exact H].
  - intros [rest [q' [-> H]]]. assert (Lq : length q' = length q).
    { apply (f_equal (@length string)) in H. rewrite !map_length in H. exact H. }
    rewrite <- Lq, firstn_app, Nat.sub_diag, firstn_all, app_nil_r. exact H.
Qed.

Lemma begins_rest p q rest : begins p q rest -> rest = skipn (length q) p.
Proof.
  intros [q' [-> H]]. apply (f_equal (@length string)) in H. rewrite !map_length in H.
  rewrite <- H, skipn_app, Nat.sub_diag, skipn_all. reflexivity.
Qed.

Lemma hasPrefix_spec p q : pathHasPrefix p q = true <-> exists rest, begins p q rest.
Proof.
  unfold pathHasPrefix. destruct (Nat.ltb_spec (length p) (length q)) as [L|L].
  - split; [discriminate|]. intros [rest H]. apply begins_length in H. lia.
  - rewrite pathsAreEq_spec. apply begins_firstn. exact L.
Qed.

Lemma replace_spec p old new :
  (forall rest, begins p old rest -> rest <> [] -> replacePathPrefix p old new = new ++ rest) /\
  ((forall rest, begins p old rest -> rest = []) -> replacePathPrefix p old new = p).
Proof.
  unfold replacePathPrefix. split.
  - intros rest B NE. pose proof (begins_length _ _ _ B) as L.
    assert (0 < length rest) by (destruct rest; [contradiction|cbn; lia]).
    destruct (Nat.leb_spec (length p) (length old)) as [L2|L2]; [lia|].
    rewrite (proj2 (pathsAreEq_spec _ _)); [|apply begins_firstn; [lia|eauto]]. cbn.
    rewrite <- (begins_rest _ _ _ B). reflexivity.
  - intros H. destruct (Nat.leb_spec (length p) (length old)) as [L2|L2]; [reflexivity|].
    destruct (pathsAreEq (firstn (length old) p) old) eqn:E; cbn; [|reflexivity].
    apply pathsAreEq_spec in E. apply begins_firstn in E as [rest B]; [|lia].
    pose proof (begins_length _ _ _ B) as L. rewrite (H rest B) in L. cbn in L. lia.
Qed.

Lemma same_refl p : same_labels p p.
Proof. reflexivity. Qed.

Lemma replace_back p old new rest : begins p old rest -> rest <> [] ->
  replacePathPrefix (replacePathPrefix p old new) new old = old ++ rest /\
  pathsAreEq (replacePathPrefix (replacePathPrefix p old new) new old) p = true /\
  (p = old ++ rest -> replacePathPrefix (replacePathPrefix p old new) new old = p).
Proof.
  intros B NE. destruct (replace_spec p old new) as [H _]. rewrite (H rest B NE).
  destruct (replace_spec (new ++ rest) new old) as [H2 _].
  rewrite (H2 rest); [|exists new; split; [reflexivity|apply same_refl]|exact NE].
  split; [reflexivity|]. split; [|auto]. apply pathsAreEq_spec.
  destruct B as [q' [-> S]]. unfold same_labels in *. rewrite !map_app. congruence.
Qed.

Lemma paths_equiv :
  (forall p, pathsAreEq p p = true) /\
  (forall p q, pathsAreEq p q = true -> pathsAreEq q p = true) /\
  (forall p q r, pathsAreEq p q = true -> pathsAreEq q r = true -> pathsAreEq p r = true) /\
  (forall p q, pathsAreEq p q = true <-> same_labels p q).
Proof.
  split; [|split; [|split]].
  - intros p. apply pathsAreEq_spec. reflexivity.
  - intros p q H. apply pathsAreEq_spec in H. apply pathsAreEq_spec. symmetry. exact H.
  - intros p q r H1 H2. apply pathsAreEq_spec in H1, H2. apply pathsAreEq_spec. unfold same_labels in *. congruence.
  - apply pathsAreEq_spec.
Qed.

Lemma last_spec p s :
  (p = [] -> lastSelectorEq p s = Panic) /\
  (forall q x, p = q ++ [x] -> exists b, lastSelectorEq p s = Ok b /\ (b = true <-> sel_label x = sel_label s)).
Proof.
  unfold lastSelectorEq, indexZ. split; [intros ->; reflexivity|].
  intros q x ->. rewrite app_length. cbn [length].
  destruct (Z.ltb_spec (Z.of_nat (length q + 1) - 1) 0) as [L|L]; [lia|].
  replace (Z.to_nat (Z.of_nat (length q + 1) - 1)) with (length q) by lia.
  unfold index. rewrite nth_error_app2, Nat.sub_diag by lia. cbn. eexists. split; [reflexivity|]. apply selEq_spec.
Qed.

(** *** TrimPathPrefix *)

(** [rest] is what follows the longest common beginning of both paths. *)
Definition after_common (p q rest : cpath) : Prop :=
  exists c c' q', p = c ++ rest /\ q = c' ++ q' /\ same_labels c c' /\
    match rest, q' with
    | a :: _, b :: _ => sel_label a <> sel_label b
    | _, _ => True
    end.

Lemma common_spec q : forall p, after_common p q (skipn (common q p) p).
Proof.
  unfold after_common. induction q as [|b q IH]; intros [|a p]; cbn [common skipn].
  - exists [], [], []. repeat split.
  - exists [], [], []. repeat split.
  - exists [], [], (b :: q). repeat split.
  - destruct (selEq b a) eqn:E; cbn [negb skipn].
    + apply selEq_spec in E. destruct (IH p) as [c [c' [q' [H1 [H2 [H3 H4]]]]]].
      exists (a :: c), (b :: c'), q'. split; [cbn; f_equal; exact H1|]. split; [cbn; f_equal; exact H2|].
      split; [|exact H4]. unfold same_labels in *. cbn. congruence.
    + exists [], [], (b :: q). repeat split. intros K. symmetry in K. apply selEq_spec in K. congruence.
Qed.

Lemma after_common_fun p q r r' : after_common p q r -> after_common p q r' -> r = r'.
Proof.
  intros [c [c' [q' [-> [-> [S M]]]]]] H. revert c' S H. induction c as [|a c IH]; intros [|b c'] S H; cbn in *; try discriminate.
  - destruct H as [d [d' [u [H1 [H2 [H3 H4]]]]]]. destruct d as [|x d]; [exact H1|].
    destruct d' as [|y d']; [discriminate|]. cbn in *. subst r. rewrite H2 in M. injection H3 as H3 _. contradiction.
  - destruct H as [d [d' [u [H1 [H2 [H3 H4]]]]]]. injection S as S1 S2.
    destruct d as [|x d]; destruct d' as [|y d']; try discriminate; cbn in *.
    + subst r' u. contradiction.
    + injection H1 as -> H1. injection H2 as -> H2. injection H3 as _ H3.
      apply (IH c' S2). exists d, d', u. auto.
Qed.

Lemma trim_exact p q :
  (length p = 1 -> trimPathPrefix p q = p) /\
  (length p <> 1 -> after_common p q (trimPathPrefix p q)).
Proof.
  unfold trimPathPrefix. split; intros L.
  - apply Nat.eqb_eq in L. rewrite L. reflexivity.
  - apply Nat.eqb_neq in L. rewrite L. apply common_spec.
Qed.

Lemma trim_exactly p q :
  (length p = 1 -> trimPathPrefix p q = p) /\
  (length p <> 1 -> forall rest, after_common p q rest <-> rest = trimPathPrefix p q).
Proof.
  destruct (trim_exact p q) as [H1 H2]. split; [exact H1|]. intros L rest. split.
  - intros H. apply (after_common_fun p q); auto.
  - intros ->. auto.
Qed.

Lemma trim_present p q rest : length p <> 1 -> begins p q rest -> trimPathPrefix p q = rest.
Proof.
  intros L [q' [-> S]]. destruct (trim_exact (q' ++ rest) q) as [_ H].
  apply (after_common_fun (q' ++ rest) q); [auto|]. exists q', q, []. rewrite app_nil_r.
  split; [reflexivity|]. split; [reflexivity|]. split; [exact S|]. destruct rest; exact I.
Qed.

Lemma trim_absent p q a b : nth_error p 0 = Some a -> nth_error q 0 = Some b -> sel_label a <> sel_label b ->
  trimPathPrefix p q = p.
Proof.
  destruct p as [|a' p]; [discriminate|]. destruct q as [|b' q]; [discriminate|]. cbn.
  intros E1 E2 N. injection E1 as ->. injection E2 as ->. unfold trimPathPrefix.
  destruct (Nat.eqb _ _); [reflexivity|]. cbn. destruct (selEq b a) eqn:E; [|reflexivity].
  apply selEq_spec in E. congruence.
Qed.

Lemma trim_strips_partial :
  exists p q, ~ (exists rest, begins p q rest) /\ trimPathPrefix p q <> p.
Proof.
  exists [mkSel "a" false; mkSel "b" false], [mkSel "a" false; mkSel "c" false]. split.
  - intros [rest [q' [E S]]]. destruct q' as [|x [|y [|z q']]]; cbn in S; try discriminate.
    cbn in E. injection E as E1 E2 E3. subst. discriminate.
  - discriminate.
Qed.

(** *** Labels *)

(** The characters CUE identifiers are made of. *)
Definition label_chars : string :=
  "abcdefghijklmnopqrstuvwxyzABCDEFGHIJKLMNOPQRSTUVWXYZ0123456789_".
Definition label_char (a : ascii) : bool := existsb (Ascii.eqb a) (list_ascii_of_string label_chars).

Lemma label_char_ranges a : label_char a =
  in_range 97 122 a || in_range 65 90 a || in_range 48 57 a || (byte a =? 95)%N.
Proof. destruct a as [[] [] [] [] [] [] [] []]; reflexivity. Qed.

Fixpoint keep_label (s : string) : string :=
  match s with
  | EmptyString => ""
  | String a r => if label_char a then String a (keep_label r) else keep_label r
  end.

Lemma byte_lt a : (byte a < 256)%N.
Proof. unfold byte. apply N_ascii_bounded. Qed.

(** The first [k] bytes of [s] are not ASCII. *)
Fixpoint high (k : nat) (s : string) : Prop :=
  match k, s with
  | O, _ => True
  | S _, EmptyString => False
  | S k, String a r => (128 <= byte a)%N /\ high k r
  end.

Lemma cont_high lo hi r b s : (128 <= lo)%N -> cont lo hi r = Some (b, s) ->
  exists a, r = String a s /\ (128 <= byte a)%N.
Proof.
  intros L H. destruct r as [|a r]; [discriminate|]. cbn in H. destruct (in_range lo hi a) eqn:E; [|discriminate].
  injection H as _ <-. exists a. split; [reflexivity|]. unfold in_range in E. lia.
Qed.

Lemma decode_ascii a r : (byte a < 128)%N -> decode_rune a r = (byte a, 1).
Proof. intros H. unfold decode_rune. apply N.ltb_lt in H. rewrite H. reflexivity. Qed.

Lemma decode_bad : (128 <= fst bad)%N /\ forall r, high (snd bad - 1) r.
Proof. split; [unfold bad; cbn; lia|]. intros r. exact I. Qed.

Lemma decode2_high x r : (2 <= x)%N -> (128 <= fst (decode2 x r))%N /\ high (snd (decode2 x r) - 1) r.
Proof.
  intros X. unfold decode2. destruct (cont 128 191 r) as [[b1 r1]|] eqn:E; [|split; apply decode_bad].
  apply cont_high in E as [a [-> H]]; [|lia]. cbn [fst snd Nat.sub high]. split; [lia|auto].
Qed.

Lemma decode3_high lo hi x r : (128 <= lo)%N -> (x = 0 -> 160 <= lo)%N ->
  (128 <= fst (decode3 lo hi x r))%N /\ high (snd (decode3 lo hi x r) - 1) r.
Proof.
  intros L X. unfold decode3. destruct (cont lo hi r) as [[b1 r1]|] eqn:E; [|split; apply decode_bad].
  assert (B : (x = 0 -> 32 <= b1)%N).
  { destruct r as [|a r]; [discriminate|]. cbn in E. destruct (in_range lo hi a) eqn:R; [|discriminate].
    injection E as <- _. unfold in_range in R. intros Z. specialize (X Z). lia. }
  apply cont_high in E as [a [-> H]]; [|lia].
  destruct (cont 128 191 r1) as [[b2 r2]|] eqn:E2; [|split; apply decode_bad].
  apply cont_high in E2 as [a2 [-> H2]]; [|lia]. cbn [fst snd Nat.sub high]. split; [|auto].
  destruct (N.eq_dec x 0) as [->|Z]; [specialize (B eq_refl); lia|]. lia.
Qed.

Lemma decode4_high lo hi x r : (128 <= lo)%N -> (x = 0 -> 144 <= lo)%N ->
  (128 <= fst (decode4 lo hi x r))%N /\ high (snd (decode4 lo hi x r) - 1) r.
Proof.
  intros L X. unfold decode4. destruct (cont lo hi r) as [[b1 r1]|] eqn:E; [|split; apply decode_bad].
  assert (B : (x = 0 -> 16 <= b1)%N).
  { destruct r as [|a r]; [discriminate|]. cbn in E. destruct (in_range lo hi a) eqn:R; [|discriminate].
    injection E as <- _. unfold in_range in R. intros Z. specialize (X Z). lia. }
  apply cont_high in E as [a [-> H]]; [|lia].
  destruct (cont 128 191 r1) as [[b2 r2]|] eqn:E2; [|split; apply decode_bad].
  apply cont_high in E2 as [a2 [-> H2]]; [|lia].
  destruct (cont 128 191 r2) as [[b3 r3]|] eqn:E3; [|split; apply decode_bad].
  apply cont_high in E3 as [a3 [-> H3]]; [|lia]. cbn [fst snd Nat.sub high]. split; [|auto].
  destruct (N.eq_dec x 0) as [->|Z]; [specialize (B eq_refl); lia|]. lia.
Qed.

Lemma decode_high a r : (128 <= byte a)%N ->
  (128 <= fst (decode_rune a r))%N /\ high (snd (decode_rune a r) - 1) r.
Proof.
  intros H. unfold decode_rune. destruct (N.ltb_spec (byte a) 128) as [L|L]; [lia|].
  destruct (in_range 194 223 a) eqn:R1; [apply decode2_high; unfold in_range in R1; lia|].
  destruct (byte a =? 224)%N eqn:R2; [apply decode3_high; lia|].
  destruct (byte a =? 237)%N eqn:R3; [apply decode3_high; lia|].
  destruct (in_range 225 239 a) eqn:R4; [apply decode3_high; unfold in_range in R4; lia|].
  destruct (byte a =? 240)%N eqn:R5; [apply decode4_high; lia|].
  destruct (in_range 241 243 a) eqn:R6; [apply decode4_high; unfold in_range in R6; lia|].
  destruct (byte a =? 244)%N eqn:R7; [apply decode4_high; lia|].
  split; apply decode_bad.
Qed.

Lemma label_rune_spec r : label_rune r =
  if ((97 <=? r)%N && (r <=? 122)%N) || ((65 <=? r)%N && (r <=? 90)%N) || ((48 <=? r)%N && (r <=? 57)%N) || (r =? 95)%N
  then Some r else None.
Proof.
  unfold label_rune. destruct ((97 <=? r)%N && (r <=? 122)%N); [reflexivity|].
  destruct ((65 <=? r)%N && (r <=? 90)%N); [reflexivity|].
  destruct ((48 <=? r)%N && (r <=? 57)%N); [reflexivity|]. reflexivity.
Qed.

Lemma label_rune_high r : (128 <= r)%N -> label_rune r = None.
Proof.
  intros H. rewrite label_rune_spec.
  destruct ((_ && _) || (_ && _) || (_ && _) || _)%bool eqn:E; [lia|reflexivity].
Qed.

Lemma label_char_high a : (128 <= byte a)%N -> label_char a = false.
Proof. intros H. rewrite label_char_ranges. unfold in_range. lia. Qed.

Lemma label_rune_byte a : label_rune (byte a) = if label_char a then Some (byte a) else None.
Proof. rewrite label_rune_spec, label_char_ranges. reflexivity. Qed.

Lemma encode_byte a : encode_ascii (byte a) = a.
Proof. apply ascii_N_embedding. Qed.

Definition map_runes (l : list N) : string :=
  fold_right (fun r acc => match label_rune r with
                           | Some x => String (encode_ascii x) acc
                           | None => acc
                           end) "" l.

Lemma sanitize_from s : forall k, high k s -> map_runes (runes_from k s) = keep_label s.
Proof.
  induction s as [|a r IH]; intros k H; [reflexivity|]. cbn [runes_from keep_label].
  destruct k as [|k].
  - destruct (N.lt_ge_cases (byte a) 128) as [L|L].
    + rewrite (decode_ascii a r L). cbn [map_runes fold_right Nat.sub]. fold (map_runes (runes_from 0 r)).
      rewrite label_rune_byte, (IH 0 I). destruct (label_char a); [rewrite encode_byte|]; reflexivity.
    + pose proof (decode_high a r L) as [D1 D2]. destruct (decode_rune a r) as [x w]. cbn [fst snd] in *.
      cbn [map_runes fold_right]. fold (map_runes (runes_from (w - 1) r)).
      rewrite (label_rune_high x D1), (label_char_high a L). apply IH. exact D2.
  - cbn in H. destruct H as [H1 H2]. rewrite (label_char_high a H1). apply IH. exact H2.
Qed.

Lemma sanitize_keep s : sanitizeLabelString s = keep_label s.
Proof. exact (sanitize_from s 0 I). Qed.

Local Opaque label_char.

Lemma keep_app s t : keep_label (s ++ t) = (keep_label s ++ keep_label t)%string.
Proof.
  induction s as [|a s IH]; [reflexivity|]. cbn. destruct (label_char a); cbn; rewrite IH; reflexivity.
Qed.

Fixpoint all_label (s : string) : Prop :=
  match s with EmptyString => True | String a r => label_char a = true /\ all_label r end.

Lemma keep_legal s : all_label s -> keep_label s = s.
Proof. induction s as [|a s IH]; [reflexivity|]. cbn. intros [-> H]. rewrite (IH H). reflexivity. Qed.

Lemma keep_all s : all_label (keep_label s).
Proof. induction s as [|a s IH]; [exact I|]. cbn. destruct (label_char a) eqn:E; cbn; auto. Qed.

Lemma sanitize_spec :
  (forall s, sanitizeLabelString s = keep_label s) /\
  (forall s, sanitizeLabelString (sanitizeLabelString s) = sanitizeLabelString s) /\
  (forall s t, sanitizeLabelString (s ++ t) = (sanitizeLabelString s ++ sanitizeLabelString t)%string) /\
  (forall s, all_label (sanitizeLabelString s)) /\
  (forall s, all_label s -> sanitizeLabelString s = s).
Proof.
  split; [exact sanitize_keep|]. split; [|split; [|split]].
  - intros s. rewrite !sanitize_keep. apply keep_legal, keep_all.
  - intros s t. rewrite !sanitize_keep. apply keep_app.
  - intros s. rewrite sanitize_keep. apply keep_all.
  - intros s H. rewrite sanitize_keep. apply keep_legal. exact H.
Qed.

(** *** Overlays *)

Inductive at_path : fsnode -> list string -> fsnode -> Prop :=
| ap_here n : at_path n [] n
| ap_in es name d p n : In (name, d) es -> at_path d p n -> at_path (FDir (Some es)) (name :: p) n.

(** Directories list each name once. *)
Inductive names_once : fsnode -> Prop :=
| no_file c : names_once (FFile c)
| no_unlisted : names_once (FDir None)
| no_dir es : NoDup (map fst es) -> (forall x d, In (x, d) es -> names_once d) -> names_once (FDir (Some es)).

(** Everything can be read. *)
Definition readable (n : fsnode) : Prop :=
  forall p, ~ at_path n p (FFile None) /\ ~ at_path n p (FDir None).

Fixpoint files (n : fsnode) : list (list string * string) :=
  match n with
  | FFile (Some c) => [([], c)]
  | FFile None | FDir None => []
  | FDir (Some es) =>
      (fix go (l : list (string * fsnode)) :=
         match l with
         | [] => []
         | (name, d) :: r => map (fun x => (name :: fst x, snd x)) (files d) ++ go r
         end) es
  end.
Definition files_list (es : list (string * fsnode)) : list (list string * string) :=
  flat_map (fun e => map (fun x => (fst e :: fst x, snd x)) (files (snd e))) es.

Lemma files_dir es : files (FDir (Some es)) = files_list es.
Proof.
  unfold files_list. cbn. induction es as [|[x d] r IH]; [reflexivity|]. cbn. f_equal. exact IH.
Qed.

Fixpoint size (n : fsnode) : nat :=
  match n with
  | FDir (Some es) => S (fold_right (fun e k => size (snd e) + k) 0 es)
  | _ => 1
  end.

Lemma size_in x d es : In (x, d) es -> size d < size (FDir (Some es)).
Proof.
  cbn. induction es as [|e r IH]; intros H; [destruct H|]. cbn. destruct H as [->|H]; cbn; [lia|].
  specialize (IH H). lia.
Qed.

Lemma files_at k : forall n, size n <= k -> forall p c, In (p, c) (files n) <-> at_path n p (FFile (Some c)).
Proof.
  induction k as [|k IH]; intros n Hk p c; [destruct n as [|[|]]; cbn in Hk; lia|].
  destruct n as [[c'|]|[es|]].
  - cbn. split; [intros [E|[]]; injection E as <- <-; constructor|]. intros H. inversion H; subst. auto.
  - cbn. split; [intros []|]. intros H. inversion H.
  - rewrite files_dir. unfold files_list. rewrite in_flat_map. split.
    + intros [[x d] [H1 H2]]. cbn in H2. apply in_map_iff in H2 as [[p' c''] [E H2]]. cbn in E. injection E as <- <-.
      apply (ap_in es x d); [exact H1|]. apply IH; [|exact H2]. pose proof (size_in _ _ _ H1). lia.
    + intros H. inversion H as [|es' x d p' n H1 H2]; subst. exists (x, d). split; [exact H1|].
      cbn. apply in_map_iff. exists (p', c). split; [reflexivity|]. apply IH; [|exact H2].
      pose proof (size_in _ _ _ H1). lia.
  - cbn. split; [intros []|]. intros H. inversion H.
Qed.

Lemma map_cons_nodup x (l : list (list string)) : NoDup l -> NoDup (map (cons x) l).
Proof.
  induction 1 as [|a l H N IH]; cbn; constructor; [|exact IH]. intros K. apply in_map_iff in K as [b [E K]].
  injection E as ->. contradiction.
Qed.

Lemma nodup_app (A : Type) (l r : list A) : NoDup l -> NoDup r -> (forall x, In x l -> ~ In x r) -> NoDup (l ++ r).
Proof.
  induction 1 as [|a l Ha N IH]; intros R D; [exact R|]. cbn. constructor.
  - intros K. apply in_app_or in K as [K|K]; [contradiction|]. apply (D a); [left; reflexivity|exact K].
  - apply IH; [exact R|]. intros x Hx. apply D. right. exact Hx.
Qed.

Lemma files_nodup k : forall n, size n <= k -> names_once n -> NoDup (map fst (files n)).
Proof.
  induction k as [|k IH]; intros n Hk W; [destruct n as [|[|]]; cbn in Hk; lia|].
  destruct n as [[c'|]|[es|]]; try (cbn; repeat constructor; auto; fail).
  rewrite files_dir. inversion W as [| |es' ND H E]; subst. unfold files_list.
  assert (Sz : forall x d, In (x, d) es -> size d <= k).
  { intros x d Hx. pose proof (size_in _ _ _ Hx). lia. }
  clear Hk W. induction es as [|[x d] r IHr]; [constructor|]. cbn in *. rewrite map_app, map_map. cbn.
  inversion ND as [|? ? N1 N2]; subst. apply nodup_app.
  - rewrite <- (map_map fst (cons x)). apply map_cons_nodup. apply IH; [eapply Sz; left; reflexivity|].
    apply (H x). left. reflexivity.
  - apply IHr; [exact N2| |].
    + intros x' d' Hx. apply (H x'). right. exact Hx.
    + intros x' d' Hx. apply (Sz x'). right. exact Hx.
  - intros p K1 K2. apply in_map_iff in K1 as [[p1 c1] [<- _]]. cbn in K2.
    apply in_map_iff in K2 as [[p2 c2] [E K2]]. cbn in E. subst p2.
    apply in_flat_map in K2 as [[x3 d3] [K3 K4]]. cbn in K4. apply in_map_iff in K4 as [[p4 c4] [E4 _]].
    cbn in E4. injection E4 as -> _ _. apply N1. apply in_map_iff. exists (x, d3). auto.
Qed.

Definition walk_list (base path : list string) :=
  fix go (l : list (string * fsnode)) (ov : option overlay) : outcome (option overlay * option err) :=
    match l with
    | [] => Ok (ov, None)
    | (name, d) :: r =>
        x <- walk base (path ++ [name]) d ov ;;
        match snd x with
        | Some e => Ok x
        | None => go r (fst x)
        end
    end.

Lemma walk_dir base path es ov : walk base path (FDir (Some es)) ov = walk_list base path es ov.
Proof. reflexivity. Qed.

Definition entry (base path : list string) (x : list string * string) : list string * string :=
  (base ++ path ++ fst x, snd x).

(** What a walk leaves behind: new entries before the old ones, all of them
    files; all files, unless there was an error. *)
Definition walked (base path : list string) (fs : list (list string * string)) (ok : Prop) (m : overlay)
  (o : outcome (option overlay * option err)) : Prop :=
  exists l r, o = Ok (Some (l ++ m), r) /\
    (forall x, In x l -> exists y, In y fs /\ x = entry base path y) /\
    (r = None -> l = rev (map (entry base path) fs) /\ ok) /\
    (r <> None -> r = Some io_err /\ ~ ok).

Lemma walk_spec k : forall n, size n <= k -> forall base path m,
  walked base path (files n) (readable n) m (walk base path n (Some m)).
Proof.
  induction k as [|k IH]; intros n Hk base path m; [destruct n as [|[|]]; cbn in Hk; lia|].
  destruct n as [[c|]|[es|]].
  - exists [(base ++ path, c)], None. cbn. split; [reflexivity|]. unfold entry. cbn. rewrite app_nil_r. split; [|split].
    + intros x [<-|[]]. exists ([], c). cbn. rewrite app_nil_r. auto.
    + intros _. split; [reflexivity|]. intros p. split; intros H; inversion H.
    + intros H. contradiction.
  - exists [], (Some io_err). split; [reflexivity|]. split; [intros x []|]. split; [discriminate|]. intros _.
    split; [reflexivity|]. intros R. destruct (R []) as [R1 _]. apply R1. constructor.
  - rewrite walk_dir, files_dir.
    assert (Sz : forall x d, In (x, d) es -> size d <= k).
    { intros x d Hx. pose proof (size_in _ _ _ Hx). lia. }
    assert (L : forall es, (forall x d, In (x, d) es -> size d <= k) -> forall m,
      walked base path (files_list es) (forall x d, In (x, d) es -> readable d) m (walk_list base path es (Some m))).
    { clear - IH. induction es as [|[x d] r IHr]; intros Sz m.
      - exists [], None. split; [reflexivity|]. split; [intros x []|].
        split; [split; [reflexivity|intros x d []]|contradiction].
      - assert (Sd : size d <= k) by (apply (Sz x); left; reflexivity).
        destruct (IH d Sd base (path ++ [x]) m) as [l [e [E [H1 [H2 H3]]]]]. cbn. rewrite E. cbn.
        assert (T : forall y, entry base (path ++ [x]) y = entry base path (x :: fst y, snd y)).
        { intros y. unfold entry. cbn. rewrite <- app_assoc. reflexivity. }
        destruct e as [e|].
        + exists l, (Some e). split; [reflexivity|]. split; [|split; [discriminate|]].
          * intros y Hy. destruct (H1 y Hy) as [z [Hz ->]]. exists (x :: fst z, snd z). split; [|apply T].
            apply in_or_app. left. cbn. apply in_map_iff. exists z. auto.
          * intros _. destruct H3 as [H3 H4]; [discriminate|]. split; [exact H3|]. intros R. apply H4.
            apply (R x). left. reflexivity.
        + destruct (H2 eq_refl) as [-> Rd].
          destruct (IHr (fun y d' H => Sz y d' (or_intror H)) (rev (map (entry base (path ++ [x])) (files d)) ++ m))
            as [l2 [e2 [E2 [G1 [G2 G3]]]]].
          exists (l2 ++ rev (map (entry base (path ++ [x])) (files d))), e2.
          split; [rewrite <- app_assoc; exact E2|]. split; [|split].
          * intros y Hy. apply in_app_or in Hy as [Hy|Hy].
            -- destruct (G1 y Hy) as [z [Hz ->]]. exists z. split; [|reflexivity]. apply in_or_app. right. exact Hz.
            -- destruct (H1 y Hy) as [z [Hz ->]]. exists (x :: fst z, snd z). split; [|apply T].
               apply in_or_app. left. cbn. apply in_map_iff. exists z. auto.
          * intros ->. destruct (G2 eq_refl) as [-> R]. split.
            -- cbn. rewrite map_app, rev_app_distr, map_map. f_equal. f_equal. apply map_ext. exact T.
            -- intros y d' [K|K]; [injection K as <- <-; exact Rd|]. apply (R y). exact K.
          * intros N. destruct (G3 N) as [G4 G5]. split; [exact G4|]. intros R. apply G5. intros y d' K.
            apply (R y). right. exact K. }
    destruct (L es Sz m) as [l [e [E [H1 [H2 H3]]]]]. exists l, e.
    assert (RD : readable (FDir (Some es)) <-> (forall x d, In (x, d) es -> readable d)).
    { split.
      - intros R x d Hx p. destruct (R (x :: p)) as [R1 R2]. split; intros K; [apply R1|apply R2];
          apply (ap_in es x d); assumption.
      - intros R p. split; intros K; inversion K as [|es' x d p' n' K1 K2]; subst;
          destruct (R x d K1 p') as [R1 R2]; auto. }
    split; [exact E|]. split; [exact H1|]. split.
    + intros N. destruct (H2 N) as [A B]. split; [exact A|]. apply RD. exact B.
    + intros N. destruct (H3 N) as [A B]. split; [exact A|]. rewrite RD. exact B.
  - exists [], (Some io_err). split; [reflexivity|]. split; [intros x []|]. split; [discriminate|]. intros _.
    split; [reflexivity|]. intros R. destruct (R []) as [_ R2]. apply R2. constructor.
Qed.

(** *** Lookup *)

Lemma path_eqb_spec a b : path_eqb a b = true <-> a = b.
Proof. unfold path_eqb. destruct (list_eq_dec string_dec a b); split; congruence. Qed.

Lemma lookup_app l m k : ov_lookup (l ++ m) k =
  match ov_lookup l k with Some c => Some c | None => ov_lookup m k end.
Proof.
  induction l as [|[k' c] l IH]; [reflexivity|]. cbn. destruct (path_eqb k k'); [reflexivity|exact IH].
Qed.

Lemma lookup_in l k c : ov_lookup l k = Some c -> In (k, c) l.
Proof.
  induction l as [|[k' c'] l IH]; cbn; [discriminate|]. destruct (path_eqb k k') eqn:E.
  - apply path_eqb_spec in E as ->. intros H. injection H as ->. auto.
  - auto.
Qed.

Lemma lookup_none l k : ov_lookup l k = None -> forall c, ~ In (k, c) l.
Proof.
  induction l as [|[k' c'] l IH]; cbn; [auto|]. destruct (path_eqb k k') eqn:E; [discriminate|].
  intros H c [K|K]; [|apply (IH H c K)]. injection K as -> ->. rewrite (proj2 (path_eqb_spec k k) eq_refl) in E. discriminate.
Qed.

Lemma in_lookup l k c : NoDup (map fst l) -> In (k, c) l -> ov_lookup l k = Some c.
Proof.
  induction l as [|[k' c'] l IH]; intros N H; [destruct H|]. cbn in *. inversion N as [|? ? N1 N2]; subst.
  destruct (path_eqb k k') eqn:E.
  - apply path_eqb_spec in E as ->. destruct H as [H|H]; [congruence|]. exfalso. apply N1.
    apply in_map_iff. exists (k', c). auto.
  - destruct H as [H|H]; [|auto]. injection H as -> ->. rewrite (proj2 (path_eqb_spec k k) eq_refl) in E. discriminate.
Qed.

Lemma overlay_readable prefix n m :
  is_abs prefix = true -> names_once n -> readable n ->
  exists m', toOverlay prefix n (Some m) = Ok (Some m', None) /\
    (forall p c, at_path n p (FFile (Some c)) -> ov_lookup m' (clean_abs prefix ++ p) = Some c) /\
    (forall k, (forall p c, k = clean_abs prefix ++ p -> ~ at_path n p (FFile (Some c))) ->
       ov_lookup m' k = ov_lookup m k).
Proof.
  intros A W R. unfold toOverlay. rewrite A. cbn [negb].
  destruct (walk_spec (size n) n (le_n _) (clean_abs prefix) [] m) as [l [e [E [_ [H2 H3]]]]].
  destruct e as [e|]; [destruct H3 as [_ H3]; [discriminate|]; contradiction|].
  destruct (H2 eq_refl) as [-> _]. eexists. split; [exact E|].
  set (l := rev (map (entry (clean_abs prefix) []) (files n))).
  assert (M : forall k c, In (k, c) l <-> exists p, at_path n p (FFile (Some c)) /\ k = clean_abs prefix ++ p).
  { intros k c. unfold l. rewrite <- in_rev, in_map_iff. split.
    - intros [[p c'] [K H]]. unfold entry in K. cbn in K. injection K as <- ->. exists p. split; [|reflexivity].
      apply (files_at (size n)); [apply le_n|exact H].
    - intros [p [H ->]]. exists (p, c). split; [reflexivity|]. apply (files_at (size n)); [apply le_n|exact H]. }
  assert (N : NoDup (map fst l)).
  { unfold l. rewrite map_rev. apply NoDup_rev. rewrite map_map. cbn.
    pose proof (files_nodup (size n) n (le_n _) W) as D. rewrite <- (map_map fst (app (clean_abs prefix))).
    induction D as [|a q Ha D IH]; cbn; constructor; [|exact IH]. intros K. apply in_map_iff in K as [b [K Hb]].
    apply app_inv_head in K. subst. contradiction. }
  split.
  - intros p c H. rewrite lookup_app, (in_lookup l _ c N); [reflexivity|]. apply M. exists p. auto.
  - intros k H. rewrite lookup_app. destruct (ov_lookup l k) as [c|] eqn:L; [|reflexivity].
    apply lookup_in in L. apply M in L as [p [L1 L2]]. exfalso. apply (H p c L2 L1).
Qed.

Lemma overlay_unreadable prefix n m :
  is_abs prefix = true -> ~ readable n ->
  exists m', toOverlay prefix n (Some m) = Ok (Some m', Some io_err) /\
    (forall k, ov_lookup m' k = ov_lookup m k \/
       exists p c, k = clean_abs prefix ++ p /\ at_path n p (FFile (Some c)) /\ ov_lookup m' k = Some c).
Proof.
  intros A R. unfold toOverlay. rewrite A. cbn [negb].
  destruct (walk_spec (size n) n (le_n _) (clean_abs prefix) [] m) as [l [e [E [H1 [H2 H3]]]]].
  destruct e as [e|]; [|destruct (H2 eq_refl) as [_ K]; contradiction].
  destruct H3 as [H3 _]; [discriminate|]. injection H3 as ->. eexists. split; [exact E|].
  intros k. rewrite lookup_app. destruct (ov_lookup l k) as [c|] eqn:L; [|left; reflexivity].
  right. apply lookup_in in L. destruct (H1 _ L) as [[p c'] [K1 K2]]. unfold entry in K2. cbn in K2.
  injection K2 as -> ->. exists p, c'. split; [reflexivity|]. split; [|reflexivity].
  apply (files_at (size n)); [apply le_n|exact K1].
Qed.

Lemma overlay_relative prefix n ov : is_abs prefix = false ->
  exists e, toOverlay prefix n ov = Ok (ov, Some e).
Proof. intros A. unfold toOverlay. rewrite A. eexists. reflexivity. Qed.

(** Assigning to a nil map panics: with a nil overlay, every FS with a file
    that is reached. *)
Lemma walk_nil k : forall n, size n <= k -> forall base path, readable n ->
  walk base path n None = match files n with [] => Ok (None, None) | _ => Panic end.
Proof.
  induction k as [|k IH]; intros n Hk base path R; [destruct n as [|[|]]; cbn in Hk; lia|].
  destruct n as [[c|]|[es|]].
  - reflexivity.
  - destruct (R []) as [R1 _]. exfalso. apply R1. constructor.
  - rewrite walk_dir, files_dir.
    assert (Q : forall x d, In (x, d) es -> size d <= k /\ readable d).
    { intros x d Hx. pose proof (size_in _ _ _ Hx). split; [lia|]. intros p. destruct (R (x :: p)) as [R1 R2].
      split; intros K; [apply R1|apply R2]; apply (ap_in es x d); assumption. }
    clear R Hk. induction es as [|[x d] r IHr]; [reflexivity|]. cbn.
    destruct (Q x d (or_introl eq_refl)) as [Q1 Q2]. rewrite (IH d Q1 base (path ++ [x]) Q2).
    destruct (files d) as [|f fr]; cbn; [|reflexivity]. apply IHr. intros y d' Hy. apply (Q y d'). right. exact Hy.
  - destruct (R []) as [_ R2]. exfalso. apply R2. constructor.
Qed.

Lemma overlay_nil prefix n : is_abs prefix = true -> readable n ->
  ((exists p c, at_path n p (FFile (Some c))) -> toOverlay prefix n None = Panic) /\
  ((forall p c, ~ at_path n p (FFile (Some c))) -> toOverlay prefix n None = Ok (None, None)).
Proof.
  intros A R. unfold toOverlay. rewrite A. cbn [negb]. rewrite (walk_nil (size n) n (le_n _) _ _ R). split.
  - intros [p [c H]]. apply (files_at (size n)) in H; [|apply le_n]. destruct (files n); [destruct H|reflexivity].
  - intros H. destruct (files n) as [|[p c] r] eqn:E; [reflexivity|]. exfalso. apply (H p c).
    apply (files_at (size n)); [apply le_n|]. rewrite E. left. reflexivity.
Qed.
