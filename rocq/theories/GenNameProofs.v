(** Proofs about GenName.v. *)
From Verif Require Import Prelude Strings Version VersionProofs Util UtilProofs GenName.
Local Open Scope string_scope.
Local Open Scope list_scope.

(** *** Characters *)

Definition upperc (c : ascii) : bool := a_upper (N_of_ascii c).
Definition lowerc (c : ascii) : bool := a_lower (N_of_ascii c).
Definition digitc (c : ascii) : bool := a_digit (N_of_ascii c).
Definition upc (c : ascii) : ascii := if lowerc c then ascii_of_N (N_of_ascii c - 32) else c.
Definition sepc (c : ascii) : bool := is_sep (N_of_ascii c).

Fixpoint all (p : ascii -> bool) (s : string) : bool :=
  match s with EmptyString => true | String c r => p c && all p r end.
Definition is_ascii (c : ascii) : bool := (N_of_ascii c <? 128)%N.
Definition alnum (c : ascii) : bool := upperc c || lowerc c || digitc c.

Fixpoint camel_str (cap : bool) (s : string) : string :=
  match s with
  | EmptyString => EmptyString
  | String c r =>
      let t := camel_str (sepc c) r in
      if upperc c then String c t
      else if digitc c then String c t
      else if lowerc c then String (if cap then upc c else c) t
      else t
  end.

Lemma within_iff lo hi r : within lo hi r = true <-> (lo <= r /\ r <= hi)%N.
Proof. unfold within. rewrite andb_true_iff, !N.leb_le. reflexivity. Qed.

Lemma within_out lo hi r : within lo hi r = false <-> ~ (lo <= r /\ r <= hi)%N.
Proof. rewrite <- within_iff. destruct (within lo hi r); split; congruence. Qed.

Fixpoint codes (s : string) : list N :=
  match s with EmptyString => [] | String c r => N_of_ascii c :: codes r end.

Lemma runes_ascii s : all is_ascii s = true -> runes s = codes s.
Proof.
  unfold runes. induction s as [|c r IH]; intros H; [reflexivity|]. cbn [all] in H.
  apply andb_true_iff in H. destruct H as [H1 H2]. cbn [runes_from codes].
  rewrite decode_ascii by (apply N.ltb_lt; exact H1). cbn [Nat.sub]. rewrite IH by exact H2. reflexivity.
Qed.

Lemma encode_small r : (r < 128)%N -> encode_rune r = String (ascii_of_N r) "".
Proof. intros H. unfold encode_rune. apply N.ltb_lt in H. rewrite H. reflexivity. Qed.

Lemma ascii_small u c : is_ascii c = true ->
  is_upper u (N_of_ascii c) = upperc c /\ is_lower u (N_of_ascii c) = lowerc c /\
  is_digit u (N_of_ascii c) = digitc c /\ to_upper u (N_of_ascii c) = N_of_ascii (upc c).
Proof.
  unfold is_ascii, is_upper, is_lower, is_digit, to_upper, upperc, lowerc, digitc, upc, lowerc. intros H.
  rewrite H. repeat split. destruct (a_lower (N_of_ascii c)) eqn:E; [|reflexivity].
  rewrite N_ascii_embedding; [reflexivity|]. apply within_iff in E. lia.
Qed.

Lemma upc_ascii c : is_ascii c = true -> is_ascii (upc c) = true.
Proof.
  unfold is_ascii, upc, lowerc. intros H. destruct (a_lower (N_of_ascii c)) eqn:E; [|exact H].
  apply within_iff in E. rewrite N_ascii_embedding by lia. apply N.ltb_lt. lia.
Qed.

Lemma camel_ascii u s : all is_ascii s = true -> forall cap,
  encode (camel u cap (codes s)) = camel_str cap s.
Proof.
  induction s as [|c r IH]; intros H cap; [reflexivity|]. cbn [all] in H.
  apply andb_true_iff in H. destruct H as [H1 H2]. specialize (IH H2).
  cbn [codes camel camel_str]. destruct (ascii_small u c H1) as [-> [-> [-> ->]]].
  assert (L : (N_of_ascii c < 128)%N) by (apply N.ltb_lt; exact H1).
  assert (L' : (N_of_ascii (upc c) < 128)%N) by (apply N.ltb_lt, upc_ascii; exact H1).
  unfold sepc. specialize (IH (is_sep (N_of_ascii c))).
  destruct (upperc c) eqn:EU; destruct (digitc c) eqn:ED; destruct (lowerc c) eqn:EL;
    unfold upperc, digitc, lowerc, a_upper, a_digit, a_lower in EU, ED, EL;
    try rewrite within_iff in EU; try rewrite within_iff in ED; try rewrite within_iff in EL; try lia;
    cbn [app encode].
  - rewrite encode_small, ascii_N_embedding, IH by exact L. reflexivity.
  - rewrite encode_small, ascii_N_embedding, IH by exact L. reflexivity.
  - destruct cap; rewrite encode_small, ascii_N_embedding, IH by assumption; reflexivity.
  - exact IH.
Qed.

Lemma all_app p a b : all p (a ++ b) = all p a && all p b.
Proof. induction a as [|c r IH]; [reflexivity|]. cbn. rewrite IH. apply andb_assoc. Qed.

Lemma trim_left_all p s : all p s = true -> all p (trim_left s) = true.
Proof.
  induction s as [|c r IH]; intros H; [reflexivity|]. cbn [trim_left]. destruct (Ascii.eqb c " "); [|exact H].
  apply IH. cbn in H. apply andb_true_iff in H. tauto.
Qed.

Lemma trim_right_all p s : all p s = true -> all p (trim_right s) = true.
Proof.
  induction s as [|c r IH]; intros H; [reflexivity|]. cbn [all] in H. apply andb_true_iff in H. destruct H as [H1 H2].
  specialize (IH H2). cbn [trim_right]. destruct (trim_right r) as [|d t] eqn:E.
  - destruct (Ascii.eqb c " "); cbn; [reflexivity|]. rewrite H1. reflexivity.
  - cbn [all] in IH |- *. rewrite H1. exact IH.
Qed.

Lemma toCamel_ascii u s : all is_ascii s = true -> toCamelCase u s = camel_str true (trim_spaces s).
Proof.
  intros H. unfold toCamelCase. assert (A : all is_ascii (trim_spaces s) = true).
  { unfold trim_spaces. apply trim_right_all, trim_left_all, H. }
  rewrite runes_ascii by exact A. apply camel_ascii, A.
Qed.

Lemma upc_upper c : lowerc c = true -> upperc (upc c) = true.
Proof.
  intros H. unfold upc. rewrite H. unfold lowerc, upperc, a_lower, a_upper in *. apply within_iff in H.
  rewrite N_ascii_embedding by lia. apply within_iff. lia.
Qed.

Lemma camel_alnum s : forall cap, all alnum (camel_str cap s) = true.
Proof.
  induction s as [|c r IH]; intros cap; [reflexivity|]. cbn [camel_str]. unfold alnum in *.
  destruct (upperc c) eqn:E1; [cbn [all]; rewrite E1; apply IH|].
  destruct (digitc c) eqn:E2; [cbn [all]; rewrite E2, !orb_true_r; apply IH|].
  destruct (lowerc c) eqn:E3; [|apply IH]. cbn [all]. destruct cap.
  - rewrite (upc_upper c E3). apply IH.
  - rewrite E3, orb_true_r. apply IH.
Qed.

(** *** Prefixes *)

Lemma prefix_word_alnum r w : prefix_word r = Some w ->
  exists c t, w = String c t /\ upperc c = true /\ all alnum t = true.
Proof.
  unfold prefix_word. repeat (match goal with |- context [if ?b then _ else _] => destruct b end;
    [intros E; injection E as <-; eexists; eexists; repeat split; reflexivity|]). discriminate.
Qed.

Definition word (s : string) : Prop := exists c t, s = String c t /\ upperc c = true /\ all alnum t = true.

Lemma word_all s : word s -> all alnum s = true.
Proof. intros [c [t [-> [H1 H2]]]]. cbn. unfold alnum at 1. rewrite H1. exact H2. Qed.

Lemma word_app a b : word a -> all alnum b = true -> word (a ++ b).
Proof.
  intros [c [t [-> [H1 H2]]]] H. exists c, (t ++ b)%string. repeat split; auto. rewrite all_app, H2. exact H.
Qed.

Lemma prefix_loop_ok u l1 rs : forall p, (p = "" \/ word p) ->
  prefix_loop u l1 p rs = "" \/ word (prefix_loop u l1 p rs).
Proof.
  induction rs as [|r rest IH]; intros p Hp; [exact Hp|]. cbn [prefix_loop].
  destruct (r =? rune "$")%N.
  - destruct l1; [|apply IH, Hp]. right. exists "D"%char, "ollarSign". repeat split.
  - destruct (prefix_word r) as [w|] eqn:E.
    + apply IH. right. destruct (prefix_word_alnum r w E) as [c [t [-> [H1 H2]]]].
      destruct Hp as [->|Hp]; [exists c, t; repeat split; assumption|].
      apply word_app; [exact Hp|]. cbn. unfold alnum at 1. rewrite H1. exact H2.
    + destruct (String.eqb p "" && is_digit u r); [|exact Hp]. right. exists "N"%char, "". repeat split.
Qed.

Lemma prefix_ok u n : typeNamePrefix u n = "" \/ word (typeNamePrefix u n).
Proof.
  unfold typeNamePrefix. destruct (String.eqb n ""); [right; exists "E"%char, "mpty"; repeat split|].
  apply prefix_loop_ok. left. reflexivity.
Qed.

Lemma type_name_alnum u n : all is_ascii n = true -> all alnum (schemaNameToTypeName u n) = true.
Proof.
  intros H. unfold schemaNameToTypeName. rewrite all_app, (toCamel_ascii u n H), camel_alnum, andb_true_r.
  destruct (prefix_ok u n) as [->|W]; [reflexivity|apply word_all, W].
Qed.

(** A non-empty prefix makes an exported identifier of any name. *)
Lemma type_name_prefixed u n : all is_ascii n = true -> word (typeNamePrefix u n) ->
  word (schemaNameToTypeName u n).
Proof.
  intros H W. unfold schemaNameToTypeName. apply word_app; [exact W|].
  rewrite (toCamel_ascii u n H). apply camel_alnum.
Qed.

Definition letterc (c : ascii) : bool := upperc c || lowerc c.

Lemma letter_not_space c : letterc c = true -> Ascii.eqb c " " = false.
Proof.
  intros H. destruct (Ascii.eqb_spec c " ") as [->|]; [discriminate|reflexivity].
Qed.

Lemma trim_letter c r : letterc c = true -> exists t, trim_spaces (String c r) = String c t.
Proof.
  intros H. unfold trim_spaces. cbn [trim_left]. rewrite (letter_not_space c H). cbn [trim_right].
  rewrite (letter_not_space c H). destruct (trim_right r); eexists; reflexivity.
Qed.

Lemma camel_letter c r : letterc c = true ->
  exists t, camel_str true (String c r) = String (upc c) t.
Proof.
  intros H. cbn [camel_str]. unfold letterc in H. destruct (upperc c) eqn:E.
  - exists (camel_str (sepc c) r). f_equal. unfold upc. destruct (lowerc c) eqn:E2; [|reflexivity].
    unfold upperc, lowerc, a_upper, a_lower in *. apply within_iff in E, E2. lia.
  - cbn in H. rewrite H. destruct (digitc c) eqn:E2.
    + unfold digitc, lowerc, a_digit, a_lower in *. apply within_iff in H, E2. lia.
    + eexists. reflexivity.
Qed.

Lemma upc_letter c : letterc c = true -> upperc (upc c) = true.
Proof.
  unfold letterc. intros H. destruct (lowerc c) eqn:E; [apply upc_upper, E|].
  unfold upc. rewrite E. rewrite orb_false_r in H. exact H.
Qed.

Lemma type_name_letter u c r : letterc c = true -> all is_ascii (String c r) = true ->
  word (schemaNameToTypeName u (String c r)).
Proof.
  intros H A. unfold schemaNameToTypeName. destruct (prefix_ok u (String c r)) as [->|W].
  - cbn [append]. rewrite (toCamel_ascii u _ A). destruct (trim_letter c r H) as [t ->].
    destruct (camel_letter c t H) as [t' E]. exists (upc c), t'. split; [exact E|]. split; [apply upc_letter, H|].
    pose proof (camel_alnum (String c t) true) as Q. rewrite E in Q. cbn in Q. apply andb_true_iff in Q. tauto.
  - apply word_app; [exact W|]. rewrite (toCamel_ascii u _ A). apply camel_alnum.
Qed.

Lemma digit_prefix u c r : digitc c = true -> all is_ascii (String c r) = true ->
  typeNamePrefix u (String c r) = "N".
Proof.
  intros H A. unfold typeNamePrefix. change (String.eqb (String c r) "") with false. cbv iota.
  rewrite (runes_ascii _ A). cbn [codes prefix_loop].
  cbn [all] in A. apply andb_true_iff in A. destruct A as [A _].
  destruct (ascii_small u c A) as [_ [_ [-> _]]]. rewrite H.
  unfold digitc, a_digit in H. apply within_iff in H.
  assert (D : (N_of_ascii c =? rune "$")%N = false) by (apply N.eqb_neq; unfold rune; cbn; lia). rewrite D.
  assert (P : prefix_word (N_of_ascii c) = None).
  { unfold prefix_word. repeat (match goal with |- context [(?a =? ?b)%N] =>
      replace (a =? b)%N with false by (symmetry; apply N.eqb_neq; unfold rune; cbn; lia) end). reflexivity. }
  rewrite P. reflexivity.
Qed.

(** The operators spelled out in names. *)
Definition operator (c : ascii) : bool :=
  existsb (Ascii.eqb c) ["-"; "+"; "&"; "|"; "~"; "="; "#"; "."; "*"; "^"; "%"]%char.

Lemma operator_word c : operator c = true -> exists w, prefix_word (N_of_ascii c) = Some w.
Proof.
  unfold operator. intros H. apply existsb_exists in H. destruct H as [d [H1 H2]].
  apply Ascii.eqb_eq in H2. subst d. cbn in H1.
  repeat (destruct H1 as [<-|H1]; [eexists; reflexivity|]). contradiction.
Qed.

Lemma prefix_loop_word u l1 rs : forall p, word p -> word (prefix_loop u l1 p rs).
Proof.
  intros p W. destruct (prefix_loop_ok u l1 rs p (or_intror W)) as [E|W']; [|exact W'].
  exfalso. revert p W E. induction rs as [|r rest IH]; intros p W E; cbn [prefix_loop] in E.
  - subst p. destruct W as [c [t [W _]]]. discriminate.
  - destruct (r =? rune "$")%N.
    + destruct l1; [discriminate|]. exact (IH p W E).
    + destruct (prefix_word r) as [w|] eqn:Ew.
      * refine (IH _ _ E). destruct (prefix_word_alnum r w Ew) as [c [t [-> [H1 H2]]]].
        apply word_app; [exact W|]. cbn. unfold alnum at 1. rewrite H1. exact H2.
      * destruct (String.eqb p "" && is_digit u r); [discriminate|]. subst p.
        destruct W as [c [t [W _]]]. discriminate.
Qed.

Lemma operator_prefix u c r : operator c = true -> all is_ascii (String c r) = true ->
  word (typeNamePrefix u (String c r)).
Proof.
  intros H A. unfold typeNamePrefix. change (String.eqb (String c r) "") with false. cbv iota.
  rewrite (runes_ascii _ A). cbn [codes prefix_loop].
  assert (D : (N_of_ascii c =? rune "$")%N = false).
  { apply N.eqb_neq. intros E. unfold rune in E. apply (f_equal ascii_of_N) in E.
    rewrite !ascii_N_embedding in E. subst c. discriminate. }
  rewrite D. destruct (operator_word c H) as [w E]. rewrite E. apply prefix_loop_word.
  destruct (prefix_word_alnum _ w E) as [c' [t [-> [H1 H2]]]]. exists c', t. repeat split; assumption.
Qed.

Lemma type_name_exported u c r :
  letterc c || digitc c || operator c = true -> all is_ascii (String c r) = true ->
  word (schemaNameToTypeName u (String c r)).
Proof.
  intros H A. apply orb_true_iff in H. destruct H as [H|H]; [apply orb_true_iff in H; destruct H as [H|H]|].
  - apply type_name_letter; assumption.
  - apply type_name_prefixed; [exact A|]. rewrite digit_prefix by assumption. exists "N"%char, "". repeat split.
  - apply type_name_prefixed; [exact A|]. apply operator_prefix; assumption.
Qed.

(** *** Names of letters and digits *)

Lemma alnum_ascii c : alnum c = true -> is_ascii c = true.
Proof.
  unfold alnum, upperc, lowerc, digitc, is_ascii, a_upper, a_lower, a_digit. intros H. apply N.ltb_lt.
  apply orb_true_iff in H. destruct H as [H|H]; [apply orb_true_iff in H; destruct H as [H|H]|];
    apply within_iff in H; lia.
Qed.

Lemma all_impl (p q : ascii -> bool) s : (forall c, p c = true -> q c = true) -> all p s = true -> all q s = true.
Proof.
  intros I. induction s as [|c r IH]; [reflexivity|]. cbn. rewrite !andb_true_iff. intros [H1 H2]. auto.
Qed.

Lemma alnum_sep c : alnum c = true -> sepc c = false.
Proof.
  intros H. unfold sepc, is_sep. apply not_true_is_false. intros E. apply existsb_exists in E.
  destruct E as [x [H1 H2]]. apply N.eqb_eq in H2. subst x.
  assert (I : In c (map ascii_of_N separators)).
  { rewrite <- (ascii_N_embedding c). apply in_map, H1. }
  clear H1. cbn in I. repeat (destruct I as [<-|I]; [discriminate|]). contradiction.
Qed.

Lemma camel_plain s : all alnum s = true -> camel_str false s = s.
Proof.
  induction s as [|c r IH]; [reflexivity|]. cbn [all]. rewrite andb_true_iff. intros [H1 H2].
  cbn [camel_str]. rewrite (alnum_sep c H1), (IH H2). unfold alnum in H1.
  destruct (upperc c); [reflexivity|]. destruct (digitc c); [reflexivity|].
  destruct (lowerc c); [reflexivity|discriminate].
Qed.

Lemma trim_right_alnum s : all alnum s = true -> trim_right s = s.
Proof.
  induction s as [|c r IH]; [reflexivity|]. cbn [all]. rewrite andb_true_iff. intros [H1 H2].
  cbn [trim_right]. rewrite (IH H2). destruct r; [|reflexivity].
  destruct (Ascii.eqb_spec c " ") as [->|]; [discriminate|reflexivity].
Qed.

Lemma type_name_plain u c r : letterc c = true -> all alnum r = true ->
  schemaNameToTypeName u (String c r) = String (upc c) r.
Proof.
  intros H A.
  assert (Hc : alnum c = true) by (unfold alnum; unfold letterc in H; rewrite H; reflexivity).
  assert (AA : all is_ascii (String c r) = true).
  { cbn. rewrite (alnum_ascii c Hc). apply (all_impl alnum); [apply alnum_ascii|exact A]. }
  unfold schemaNameToTypeName. replace (typeNamePrefix u (String c r)) with "".
  - cbn [append]. rewrite (toCamel_ascii u _ AA). unfold trim_spaces. cbn [trim_left].
    rewrite (letter_not_space c H). rewrite trim_right_alnum by (cbn; rewrite Hc; exact A).
    cbn [camel_str]. rewrite (alnum_sep c Hc), (camel_plain r A).
    unfold letterc in H. destruct (upperc c) eqn:E1.
    + unfold upc. destruct (lowerc c) eqn:E2; [|reflexivity].
      unfold upperc, lowerc, a_upper, a_lower in *. apply within_iff in E1, E2. lia.
    + cbn in H. rewrite H. destruct (digitc c) eqn:E2; [|reflexivity].
      unfold digitc, lowerc, a_digit, a_lower in *. apply within_iff in H, E2. lia.
  - symmetry. unfold typeNamePrefix. change (String.eqb (String c r) "") with false. cbv iota.
    rewrite (runes_ascii _ AA). cbn [codes prefix_loop].
    assert (D : (N_of_ascii c =? rune "$")%N = false).
    { apply N.eqb_neq. intros E. unfold rune in E. apply (f_equal ascii_of_N) in E.
      rewrite !ascii_N_embedding in E. subst c. discriminate. }
    rewrite D. replace (prefix_word (N_of_ascii c)) with (@None string).
    + destruct (ascii_small u c (alnum_ascii c Hc)) as [_ [_ [-> _]]].
      replace (digitc c) with false; [reflexivity|]. symmetry. apply not_true_is_false. intros E.
      unfold letterc, upperc, lowerc, digitc, a_upper, a_lower, a_digit in *.
      apply within_iff in E. apply orb_true_iff in H. destruct H as [H|H]; apply within_iff in H; lia.
    + symmetry. destruct (prefix_word (N_of_ascii c)) as [w|] eqn:E; [|reflexivity]. exfalso.
      unfold prefix_word in E. unfold letterc, upperc, lowerc, a_upper, a_lower in H.
      repeat (match type of E with context [(?a =? ?b)%N] => destruct (a =? b)%N eqn:Q;
        [apply N.eqb_eq in Q; unfold rune in Q; rewrite Q in H; vm_compute in H; discriminate H|clear Q] end).
      discriminate E.
Qed.

(** *** Identifiers *)

Lemma underscore_not (l : list string) s : forallb (fun k => negb (String.prefix "_" k)) l = true ->
  existsb (String.eqb ("_" ++ s)) l = false.
Proof.
  intros H. apply not_true_is_false. intros E. apply existsb_exists in E. destruct E as [k [H1 H2]].
  rewrite forallb_forall in H. specialize (H k H1). apply String.eqb_eq in H2. subst k.
  cbn in H. destruct s; discriminate.
Qed.

Lemma sanitize_total u s : exists t, sanitizeGoIdentity u s = Ok t.
Proof.
  unfold sanitizeGoIdentity. set (s1 := encode _). clearbody s1. cbv zeta.
  destruct (isGoKeyword s1 || isPredeclared s1) eqn:E.
  - exists ("_" ++ s1)%string. unfold isValidGoIdentity, isGoIdentity.
    replace (isGoKeyword ("_" ++ s1)) with false by (symmetry; apply underscore_not; reflexivity).
    rewrite andb_false_r.
    replace (isPredeclared ("_" ++ s1)) with false by (symmetry; apply underscore_not; reflexivity). reflexivity.
  - apply orb_false_iff in E. destruct E as [E1 E2]. exists s1.
    unfold isValidGoIdentity, isGoIdentity. rewrite E1, andb_false_r, E2. reflexivity.
Qed.

Lemma small_word u s f : all is_ascii s = true -> all alnum s = true ->
  (f = true -> match s with String c _ => digitc c = false | _ => True end) ->
  sanitize_runes u f (codes s) = codes s.
Proof.
  revert f. induction s as [|c r IH]; intros f A B F; [reflexivity|]. cbn [codes sanitize_runes].
  cbn [all] in A, B. apply andb_true_iff in A, B. destruct A as [A1 A2], B as [B1 B2].
  rewrite IH by (auto; discriminate). f_equal.
  unfold isValidRuneForGoID, is_letter, is_number.
  assert (Q : (N_of_ascii c <? 128)%N = true) by exact A1. rewrite Q.
  change (a_digit (N_of_ascii c)) with (digitc c). change (a_upper (N_of_ascii c)) with (upperc c).
  change (a_lower (N_of_ascii c)) with (lowerc c). unfold alnum in B1.
  destruct f; cbn [andb].
  - rewrite (F eq_refl) in B1 |- *. rewrite orb_false_r in B1. rewrite B1. reflexivity.
  - destruct (upperc c || lowerc c); [reflexivity|]. cbn in B1 |- *. rewrite B1, orb_true_r. reflexivity.
Qed.

Lemma encode_codes s : all is_ascii s = true -> encode (codes s) = s.
Proof.
  induction s as [|c r IH]; [reflexivity|]. cbn [all]. rewrite andb_true_iff. intros [H1 H2].
  cbn [codes encode]. rewrite encode_small by (apply N.ltb_lt; exact H1). rewrite ascii_N_embedding, (IH H2). reflexivity.
Qed.

Definition lower_start (k : string) : bool :=
  match k with String c _ => lowerc c | EmptyString => false end.

Lemma word_not_in (l : list string) s : forallb lower_start l = true -> word s ->
  existsb (String.eqb s) l = false.
Proof.
  intros H [c [t [-> [U _]]]]. apply not_true_is_false. intros E. apply existsb_exists in E.
  destruct E as [k [H1 H2]]. apply String.eqb_eq in H2. subst k.
  rewrite forallb_forall in H. specialize (H _ H1). cbn in H.
  unfold upperc, lowerc, a_upper, a_lower in *. apply within_iff in U, H. lia.
Qed.

Lemma sanitize_word u s : word s -> sanitizeGoIdentity u s = Ok s.
Proof.
  intros W. assert (A : all alnum s = true) by (apply word_all, W).
  assert (B : all is_ascii s = true) by (apply (all_impl alnum); [apply alnum_ascii|exact A]).
  unfold sanitizeGoIdentity. rewrite runes_ascii by exact B. rewrite small_word; auto.
  - rewrite encode_codes by exact B. cbv zeta. unfold isValidGoIdentity, isGoIdentity.
    assert (K : isGoKeyword s = false) by (apply word_not_in; [reflexivity|exact W]).
    assert (P : isPredeclared s = false) by (apply word_not_in; [reflexivity|exact W]).
    rewrite K, P. cbn [orb]. rewrite K, P, andb_false_r. reflexivity.
  - intros _. destruct W as [c [t [-> [U _]]]]. apply not_true_is_false. intros D.
    unfold upperc, digitc, a_upper, a_digit in *. apply within_iff in U, D. lia.
Qed.

Lemma word_name u s : word s -> schemaNameToTypeName u s = s.
Proof.
  intros [c [t [-> [U A]]]]. rewrite type_name_plain; auto.
  - unfold upc. destruct (lowerc c) eqn:E; [|reflexivity].
    unfold upperc, lowerc, a_upper, a_lower in *. apply within_iff in U, E. lia.
  - unfold letterc. rewrite U. reflexivity.
Qed.

(** *** Enums *)

Lemma lookup_put_same {A} k (v : A) m : lookup k (put k v m) = Some v.
Proof.
  induction m as [|[k' w] r IH]; cbn; [rewrite String.eqb_refl; reflexivity|].
  destruct (String.eqb k k') eqn:E; cbn; [rewrite String.eqb_refl; reflexivity|]. rewrite E. exact IH.
Qed.

Lemma lookup_put_other {A} k k' (v : A) m : k <> k' -> lookup k' (put k v m) = lookup k' m.
Proof.
  intros H. induction m as [|[k2 w] r IH]; cbn.
  - destruct (String.eqb_spec k' k); [congruence|reflexivity].
  - destruct (String.eqb_spec k k2); cbn.
    + subst k2. destruct (String.eqb_spec k' k); [congruence|reflexivity].
    + destruct (String.eqb k' k2); [reflexivity|exact IH].
Qed.

Lemma put_fresh {A} k (v : A) m : ~ In k (map fst m) -> put k v m = m ++ [(k, v)].
Proof.
  induction m as [|[k' w] r IH]; intros H; [reflexivity|]. cbn in *.
  destruct (String.eqb_spec k k'); [exfalso; apply H; left; congruence|]. rewrite IH by tauto. reflexivity.
Qed.

Lemma str_app_nil s : (s ++ "")%string = s.
Proof. induction s as [|c r IH]; [reflexivity|]. cbn. rewrite IH. reflexivity. Qed.

Lemma str_app_assoc a b c : ((a ++ b) ++ c)%string = (a ++ (b ++ c))%string.
Proof. induction a as [|x r IH]; [reflexivity|]. cbn. rewrite IH. reflexivity. Qed.

Lemma app_digits a : forall b d e, all digitc d = true -> all digitc e = true ->
  (a ++ d)%string = (b ++ e)%string ->
  a = b \/ (exists f, f <> "" /\ all digitc f = true /\ a = (b ++ f)%string)
        \/ (exists f, f <> "" /\ all digitc f = true /\ b = (a ++ f)%string).
Proof.
  induction a as [|c a IH]; intros b d e D E H.
  - destruct b as [|x b]; [left; reflexivity|]. right. right. exists (String x b). split; [discriminate|].
    split; [|reflexivity]. cbn [append] in H. subst d. change (String x (b ++ e)) with (String x b ++ e)%string in D.
    rewrite all_app in D. apply andb_true_iff in D. tauto.
  - destruct b as [|x b].
    + right. left. exists (String c a). split; [discriminate|]. split; [|reflexivity].
      cbn [append] in H. subst e. change (String c (a ++ d)) with (String c a ++ d)%string in E.
      rewrite all_app in E. apply andb_true_iff in E. tauto.
    + cbn [append] in H. injection H as <- H. destruct (IH b d e D E H) as [->|[[f [F1 [F2 ->]]]|[f [F1 [F2 ->]]]]].
      * left. reflexivity.
      * right. left. exists f. repeat split; assumption.
      * right. right. exists f. repeat split; assumption.
Qed.

Lemma digits_same s : all_digits s = all digitc s.
Proof. induction s as [|c r IH]; [reflexivity|]. cbn [all_digits all]. rewrite IH. reflexivity. Qed.

Lemma itoa_digits n : all digitc (itoa n) = true /\ itoa n <> "".
Proof. destruct (show_N_numeral (N.of_nat n)) as [H1 H2]. split; [rewrite <- digits_same; exact H2|exact H1]. Qed.

Lemma itoa_inj a b : itoa a = itoa b -> a = b.
Proof. unfold itoa. intros H. apply show_N_inj in H. lia. Qed.

Lemma app_inj_l a : forall b c, (a ++ b)%string = (a ++ c)%string -> b = c.
Proof. induction a as [|x a IH]; intros b c H; [exact H|]. cbn in H. injection H as H. exact (IH _ _ H). Qed.

(** The names of a list, each followed by the number of its earlier
    occurrences, if any. *)
Fixpoint numbered (seen ns : list string) : list string :=
  match ns with
  | [] => []
  | n :: r =>
      (n ++ match count_occ string_dec seen n with O => "" | S c => itoa (S c) end)%string
      :: numbered (n :: seen) r
  end.

Definition counts (cnt : list (string * nat)) (seen : list string) : Prop :=
  forall s, lookup s cnt = match count_occ string_dec seen s with O => None | S c => Some (S c) end.

Section Enum.
Variable u : unicode.
Let tn := schemaNameToTypeName u.

(** No name of the list is another one with digits appended. *)
Definition apart (l : list string) : Prop :=
  forall a b d, In a l -> In b l -> d <> "" -> all digitc d = true -> tn a <> (tn b ++ d)%string.

Definition enum_inv (names : list string) (cnt : list (string * nat)) (m : list (string * string)) : Prop :=
  (forall s c, lookup s cnt = Some c -> 1 <= c /\ exists n, In n names /\ tn n = s)
  /\ (forall k, In k (map fst m) -> exists s c, lookup s cnt = Some c /\
        (k = s \/ exists j, 1 <= j < c /\ k = (s ++ itoa j)%string))
  /\ NoDup (map fst m).

Lemma NoDup_snoc {A} (l : list A) x : NoDup l -> ~ In x l -> NoDup (l ++ [x]).
Proof.
  intros H N. induction H as [|y l H1 H2 IH]; cbn; [constructor; [intros []|constructor]|].
  constructor.
  - intros I. apply in_app_or in I. destruct I as [I|[->|[]]]; [tauto|]. apply N. left. reflexivity.
  - apply IH. intros I. apply N. right. exact I.
Qed.

Lemma sanitize_loop_all names : apart names ->
  forall l cnt m seen, (forall n v, In (n, v) l -> In n names /\ word (tn n)) -> enum_inv names cnt m ->
  counts cnt seen ->
  exists m', sanitize_loop u cnt m l = Ok (m ++ m') /\ map snd m' = map snd l /\ NoDup (map fst (m ++ m'))
    /\ map fst m' = numbered seen (map (fun p => tn (fst p)) l)
    /\ forall k, In k (map fst m') -> exists n d, In n names /\ all digitc d = true /\ k = (tn n ++ d)%string.
Proof.
  intros A. induction l as [|[n v] l IH]; intros cnt m seen Hl [I1 [I2 I3]] C.
  - exists []. rewrite app_nil_r. repeat split; auto. intros k [].
  - cbn [sanitize_loop]. destruct (Hl n v (or_introl eq_refl)) as [Hn W]. fold tn. rewrite (sanitize_word u (tn n) W).
    cbn [bind].
    assert (Hl' : forall n v, In (n, v) l -> In n names /\ word (tn n)) by (intros; apply (Hl n0 v0); right; assumption).
    destruct (lookup (tn n) cnt) as [c|] eqn:E.
    + destruct (I1 _ _ E) as [Hc _].
      assert (F : ~ In (tn n ++ itoa c)%string (map fst m)).
      { intros I. destruct (I2 _ I) as [s [c' [L [Q|[j [Hj Q]]]]]].
        - destruct (I1 _ _ L) as [_ [n' [N1 N2]]]. rewrite <- N2 in Q.
          exact (A n' n (itoa c) N1 Hn (proj2 (itoa_digits c)) (proj1 (itoa_digits c)) (eq_sym Q)).
        - destruct (I1 _ _ L) as [_ [n' [N1 N2]]]. subst s.
          destruct (app_digits _ _ _ _ (proj1 (itoa_digits c)) (proj1 (itoa_digits j)) Q)
            as [S|[[f [F1 [F2 F3]]]|[f [F1 [F2 F3]]]]].
          + rewrite <- S in Q, L. apply app_inj_l in Q. apply itoa_inj in Q. rewrite E in L. injection L as <-. lia.
          + exact (A n n' f Hn N1 F1 F2 F3).
          + exact (A n' n f N1 Hn F1 F2 F3). }
      rewrite (put_fresh _ _ m F).
      destruct (IH (put (tn n) (S c) cnt) (m ++ [((tn n ++ itoa c)%string, v)]) (tn n :: seen) Hl') as [m' [E1 [E2 [E3 [E5 E4]]]]].
      { split; [|split].
        - intros s c' L. destruct (String.eqb_spec (tn n) s) as [<-|D].
          + rewrite lookup_put_same in L. injection L as <-. split; [lia|]. exists n. split; [exact Hn|reflexivity].
          + rewrite lookup_put_other in L by exact D. exact (I1 _ _ L).
        - intros k I. rewrite map_app in I. apply in_app_or in I. destruct I as [I|[<-|[]]].
          + destruct (I2 k I) as [s [c' [L Q]]]. destruct (String.eqb_spec (tn n) s) as [<-|D].
            * exists (tn n), (S c). rewrite lookup_put_same. split; [reflexivity|].
              rewrite E in L. injection L as <-. destruct Q as [Q|[j [Hj Q]]]; [left; exact Q|].
              right. exists j. split; [lia|exact Q].
            * exists s, c'. rewrite lookup_put_other by exact D. split; assumption.
          + exists (tn n), (S c). rewrite lookup_put_same. split; [reflexivity|]. right. exists c. split; [lia|reflexivity].
        - rewrite map_app. apply NoDup_snoc; assumption. }
      { intros s. cbn [count_occ]. destruct (string_dec (tn n) s) as [<-|D].
        - rewrite lookup_put_same. rewrite C in E. destruct (count_occ string_dec seen (tn n)); [discriminate|].
          injection E as <-. reflexivity.
        - rewrite lookup_put_other by exact D. apply C. }
      exists (((tn n ++ itoa c)%string, v) :: m'). rewrite <- app_assoc in E1, E3. cbn [app] in E1, E3.
      split; [exact E1|]. split; [cbn; rewrite E2; reflexivity|]. split; [exact E3|].
      split; [cbn [map fst numbered]; rewrite E5; f_equal; rewrite C in E;
        destruct (count_occ string_dec seen (tn n)); [discriminate|injection E as <-; reflexivity]|].
      intros k [<-|I]; [exists n, (itoa c); repeat split; [exact Hn|apply itoa_digits]|exact (E4 k I)].
    + assert (F : ~ In (tn n) (map fst m)).
      { intros I. destruct (I2 _ I) as [s [c' [L [Q|[j [Hj Q]]]]]].
        - rewrite Q in E. congruence.
        - destruct (I1 _ _ L) as [_ [n' [N1 N2]]]. subst s.
          exact (A n n' (itoa j) Hn N1 (proj2 (itoa_digits j)) (proj1 (itoa_digits j)) Q). }
      rewrite (put_fresh _ _ m F).
      destruct (IH (put (tn n) 1 cnt) (m ++ [(tn n, v)]) (tn n :: seen) Hl') as [m' [E1 [E2 [E3 [E5 E4]]]]].
      { split; [|split].
        - intros s c' L. destruct (String.eqb_spec (tn n) s) as [<-|D].
          + rewrite lookup_put_same in L. injection L as <-. split; [lia|]. exists n. split; [exact Hn|reflexivity].
          + rewrite lookup_put_other in L by exact D. exact (I1 _ _ L).
        - intros k I. rewrite map_app in I. apply in_app_or in I. destruct I as [I|[<-|[]]].
          + destruct (I2 k I) as [s [c' [L Q]]]. destruct (String.eqb_spec (tn n) s) as [<-|D]; [congruence|].
            exists s, c'. rewrite lookup_put_other by exact D. split; assumption.
          + exists (tn n), 1. rewrite lookup_put_same. split; [reflexivity|left; reflexivity].
        - rewrite map_app. apply NoDup_snoc; assumption. }
      { intros s. cbn [count_occ]. destruct (string_dec (tn n) s) as [<-|D].
        - rewrite lookup_put_same. rewrite C in E. destruct (count_occ string_dec seen (tn n)); [reflexivity|].
          discriminate E.
        - rewrite lookup_put_other by exact D. apply C. }
      exists ((tn n, v) :: m'). rewrite <- app_assoc in E1, E3. cbn [app] in E1, E3.
      split; [exact E1|]. split; [cbn; rewrite E2; reflexivity|]. split; [exact E3|].
      split; [cbn [map fst numbered]; rewrite E5; f_equal; rewrite C in E;
        destruct (count_occ string_dec seen (tn n)); [symmetry; apply str_app_nil|discriminate]|].
      intros k [<-|I]; [exists n, ""; repeat split; [exact Hn|rewrite str_app_nil; reflexivity]|exact (E4 k I)].
Qed.

Lemma dedup_distinct vs : forall seen, NoDup vs -> (forall v, In v vs -> ~ In v seen) ->
  dedup seen vs vs = map (fun v => (v, v)) vs.
Proof.
  induction vs as [|v vs IH]; intros seen N D; [reflexivity|]. cbn [dedup tl map].
  inversion N as [|? ? N1 N2]; subst.
  replace (existsb (String.eqb v) seen) with false.
  - cbn [app]. rewrite IH; [reflexivity|exact N2|]. intros w Hw [<-|I]; [tauto|]. exact (D w (or_intror Hw) I).
  - symmetry. apply not_true_is_false. intros E. apply existsb_exists in E. destruct E as [w [E1 E2]].
    apply String.eqb_eq in E2. subst w. exact (D v (or_introl eq_refl) E1).
Qed.

Lemma enum_all vs : NoDup vs -> (forall v, In v vs -> word (tn v)) -> apart vs ->
  exists m, sanitizeEnumNames u vs vs = Ok m /\ map snd m = vs /\ map fst m = numbered [] (map tn vs)
    /\ NoDup (map fst m) /\ Forall word (map fst m).
Proof.
  intros N W A. unfold sanitizeEnumNames. rewrite dedup_distinct by (auto; intros v H []).
  destruct (sanitize_loop_all vs A (map (fun v => (v, v)) vs) [] [] []) as [m [E1 [E2 [E3 [E5 E4]]]]].
  - intros n v I. apply in_map_iff in I. destruct I as [w [Q I]]. injection Q as <- <-. split; [exact I|apply W, I].
  - split; [|split]; [intros s c L; discriminate|intros k []|constructor].
  - intros s. reflexivity.
  - exists m. split; [exact E1|]. split; [rewrite E2, map_map; apply map_id|].
    split; [rewrite E5, map_map; reflexivity|]. split; [exact E3|].
    apply Forall_forall. intros k I. destruct (E4 k I) as [n [d [H1 [H2 ->]]]].
    apply word_app; [apply W, H1|]. apply (all_impl digitc); [|exact H2]. intros c Hc. unfold alnum. rewrite Hc. apply orb_true_r.
Qed.

(** Every constant stands for a value of the enum. *)
Lemma put_in {A} k (v : A) m x : In x (put k v m) -> x = (k, v) \/ In x m.
Proof.
  induction m as [|[k' w] r IH]; cbn; [intros [<-|[]]; left; reflexivity|].
  destruct (String.eqb_spec k k').
  - intros [<-|I]; [left; reflexivity|right; right; exact I].
  - intros [<-|I]; [right; left; reflexivity|]. destruct (IH I); [left; assumption|right; right; assumption].
Qed.

Lemma sanitize_loop_known l : forall cnt m m' k v, sanitize_loop u cnt m l = Ok m' ->
  In (k, v) m' -> In v (map snd m) \/ In v (map snd l).
Proof.
  induction l as [|[n w] l IH]; intros cnt m m' k v E I.
  - injection E as <-. left. apply (in_map snd) in I. exact I.
  - cbn [sanitize_loop] in E. destruct (sanitize_total u (schemaNameToTypeName u n)) as [s Es].
    rewrite Es in E. cbn [bind] in E. destruct (lookup s cnt) as [c|];
      destruct (IH _ _ _ _ _ E I) as [H|H]; try (right; right; exact H);
      apply in_map_iff in H; destruct H as [x [<- H]]; apply put_in in H; destruct H as [->|H];
      [right; left; reflexivity|left; apply in_map, H|right; left; reflexivity|left; apply in_map, H].
Qed.

Lemma dedup_known vs : forall seen ns n v, In (n, v) (dedup seen ns vs) -> In v vs.
Proof.
  induction vs as [|w vs IH]; intros seen ns n v I; [destruct I|]. cbn [dedup] in I.
  apply in_app_or in I. destruct I as [I|I].
  - destruct (existsb _ seen); [destruct I|]. destruct I as [I|[]]. injection I as _ <-. left. reflexivity.
  - right. exact (IH _ _ _ _ I).
Qed.

Lemma enum_known ns vs m k v : sanitizeEnumNames u ns vs = Ok m -> In (k, v) m -> In v vs.
Proof.
  intros E I. destruct (sanitize_loop_known _ _ _ _ _ _ E I) as [[]|H].
  apply in_map_iff in H. destruct H as [[n w] [<- H]]. exact (dedup_known _ _ _ _ _ H).
Qed.

Lemma enum_total ns vs : exists m, sanitizeEnumNames u ns vs = Ok m.
Proof.
  unfold sanitizeEnumNames. generalize (dedup [] ns vs), (@nil (string * nat)), (@nil (string * string)).
  induction l as [|[n w] l IH]; intros cnt m; [exists m; reflexivity|]. cbn [sanitize_loop].
  destruct (sanitize_total u (schemaNameToTypeName u n)) as [s ->]. cbn [bind].
  destruct (lookup s cnt); apply IH.
Qed.
End Enum.
