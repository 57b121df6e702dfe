(** The exact Go name of every ASCII name. *)
From Verif Require Import Prelude Strings Version VersionProofs Util UtilProofs GenName GenNameProofs.
Local Open Scope string_scope.
Local Open Scope list_scope.

(** A name is read as a word of letters and digits followed by pieces: some
    other character and a word. *)
Fixpoint spell (ps : list (ascii * string)) : string :=
  match ps with
  | [] => ""
  | (c, w) :: r => String c (w ++ spell r)
  end.

(** The characters after which a word is capitalised. *)
Definition separator (c : ascii) : bool :=
  existsb (Ascii.eqb c) ["-"; "#"; "@"; "!"; "$"; "&"; "="; "."; "+"; ":"; ";"; "_"; "~"; " ";
    "("; ")"; "{"; "}"; "["; "]"]%char.

Definition capital (w : string) : string :=
  match w with EmptyString => "" | String c r => String (upc c) r end.

Fixpoint joined (ps : list (ascii * string)) : string :=
  match ps with
  | [] => ""
  | (c, w) :: r => ((if separator c then capital w else w) ++ joined r)%string
  end.

(** The words for operators. *)
Definition op_word (c : ascii) : option string :=
  let table := [("-"%char, "Minus"); ("+"%char, "Plus"); ("&"%char, "And"); ("|"%char, "Or");
    ("~"%char, "Tilde"); ("="%char, "Equal"); ("#"%char, "Hash"); ("."%char, "Dot");
    ("*"%char, "Asterisk"); ("^"%char, "Caret"); ("%"%char, "Percent"); ("$"%char, "")] in
  match find (fun p => Ascii.eqb c (fst p)) table with Some p => Some (snd p) | None => None end.

Fixpoint op_words (s : string) : string :=
  match s with
  | EmptyString => ""
  | String c r => match op_word c with Some w => (w ++ op_words r)%string | None => "" end
  end.

(** [ops]: the operators a name begins with; [rest]: what follows. *)
Definition prefix_spec (ops rest : string) : string :=
  if String.eqb (ops ++ rest) "" then "Empty"
  else if String.eqb (ops ++ rest) "$" then "DollarSign"
  else if String.eqb (op_words ops) "" then
    match rest with String c _ => if digitc c then "N" else "" | EmptyString => "" end
  else op_words ops.

Definition is_op (c : ascii) : bool := match op_word c with Some _ => true | None => false end.
Definition op_start (s : string) : bool := match s with String c _ => is_op c | EmptyString => false end.

Lemma sep_same c : sepc c = separator c.
Proof.
  destruct c as [[] [] [] [] [] [] [] []]; reflexivity.
Qed.

Lemma camel_trim_right s : forall cap, camel_str cap (trim_right s) = camel_str cap s.
Proof.
  induction s as [|c r IH]; intros cap; [reflexivity|]. cbn [trim_right].
  assert (Q : forall t, trim_right r = t ->
    camel_str cap (String c t) = camel_str cap (String c r)).
  { intros t <-. cbn [camel_str]. rewrite IH. reflexivity. }
  destruct (trim_right r) as [|d t] eqn:E; [|apply Q; reflexivity].
  destruct (Ascii.eqb_spec c " ") as [->|N]; [|apply Q; reflexivity].
  rewrite <- (Q "" eq_refl). reflexivity.
Qed.

Lemma camel_trim_left s : camel_str true (trim_left s) = camel_str true s.
Proof.
  induction s as [|c r IH]; [reflexivity|]. cbn [trim_left].
  destruct (Ascii.eqb_spec c " ") as [->|N]; [|reflexivity]. rewrite IH. reflexivity.
Qed.

Lemma toCamel_str u s : all is_ascii s = true -> toCamelCase u s = camel_str true s.
Proof.
  intros H. rewrite (toCamel_ascii u s H). unfold trim_spaces. rewrite camel_trim_right. apply camel_trim_left.
Qed.

Lemma camel_not_alnum c cap r : alnum c = false -> camel_str cap (String c r) = camel_str (separator c) r.
Proof.
  unfold alnum. intros H. apply orb_false_iff in H. destruct H as [H H3]. apply orb_false_iff in H. destruct H as [H1 H2].
  cbn [camel_str]. rewrite H1, H2, H3, sep_same. reflexivity.
Qed.

Lemma camel_alnum_char c cap r : alnum c = true ->
  camel_str cap (String c r) = String (if cap then upc c else c) (camel_str false r).
Proof.
  intros H. cbn [camel_str]. rewrite (alnum_sep c H). unfold alnum in H.
  assert (U : lowerc c = false -> upc c = c) by (intros E; unfold upc; rewrite E; reflexivity).
  destruct (upperc c) eqn:E1.
  - rewrite U; [destruct cap; reflexivity|]. unfold upperc, lowerc, a_upper, a_lower in *. apply within_iff in E1.
    apply within_out. lia.
  - destruct (digitc c) eqn:E2.
    + rewrite U; [destruct cap; reflexivity|]. unfold digitc, lowerc, a_digit, a_lower in *. apply within_iff in E2.
      apply within_out. lia.
    + rewrite orb_false_r in H. cbn in H. rewrite H. reflexivity.
Qed.

Lemma camel_word w : all alnum w = true -> forall cap r,
  camel_str cap (w ++ r) =
  ((if cap then capital w else w) ++ camel_str (cap && String.eqb w "") r)%string.
Proof.
  intros A cap r. destruct w as [|c w]; [destruct cap; reflexivity|].
  cbn [all] in A. apply andb_true_iff in A. destruct A as [A1 A2].
  change (String c w ++ r)%string with (String c (w ++ r)). rewrite camel_alnum_char by exact A1.
  rewrite andb_false_r.
  assert (Q : camel_str false (w ++ r) = (w ++ camel_str false r)%string).
  { clear A1. induction w as [|d w IH]; [reflexivity|]. cbn [all] in A2. apply andb_true_iff in A2. destruct A2 as [B1 B2].
    change (String d w ++ r)%string with (String d (w ++ r)). rewrite camel_alnum_char by exact B1.
    rewrite (IH B2). reflexivity. }
  rewrite Q. destruct cap; reflexivity.
Qed.

Definition pieces (ps : list (ascii * string)) : Prop :=
  Forall (fun p => alnum (fst p) = false /\ all alnum (snd p) = true) ps.

Lemma camel_pieces ps : pieces ps -> forall cap, camel_str cap (spell ps) = joined ps.
Proof.
  induction ps as [|[c w] r IH]; intros P cap; [reflexivity|]. inversion P as [|? ? [P1 P2] P3]; subst. cbn in P1, P2.
  cbn [spell joined]. rewrite camel_not_alnum by exact P1. rewrite camel_word by exact P2.
  rewrite IH by exact P3. reflexivity.
Qed.

Lemma rune_eqb c d : (N_of_ascii c =? rune d)%N = Ascii.eqb c d.
Proof.
  unfold rune. destruct (Ascii.eqb_spec c d) as [->|N]; [apply N.eqb_refl|]. apply N.eqb_neq. intros E. apply N.
  rewrite <- (ascii_N_embedding c), E. apply ascii_N_embedding.
Qed.

Lemma prefix_op c : prefix_word (N_of_ascii c) = if Ascii.eqb c "$" then None else op_word c.
Proof. destruct c as [[] [] [] [] [] [] [] []]; reflexivity. Qed.

Lemma prefix_ops u l1 ops rest : all is_op ops = true -> op_start rest = false ->
  all is_ascii (ops ++ rest) = true -> l1 = false -> forall p,
  prefix_loop u l1 p (codes (ops ++ rest)) =
  if String.eqb (p ++ op_words ops) "" then
    match rest with String c _ => if digitc c then "N" else "" | EmptyString => "" end
  else (p ++ op_words ops)%string.
Proof.
  intros O R A ->. induction ops as [|c ops IH]; intros p.
  - cbn [append op_words]. rewrite str_app_nil. cbn [append] in A. destruct rest as [|c r]; cbn [codes prefix_loop].
    + destruct (String.eqb_spec p "") as [->|]; reflexivity.
    + cbn [op_start] in R. unfold is_op in R. cbn [all] in A. apply andb_true_iff in A. destruct A as [A _].
      rewrite rune_eqb, prefix_op. destruct (Ascii.eqb_spec c "$") as [->|N]; [discriminate R|].
      destruct (op_word c); [discriminate R|]. destruct (ascii_small u c A) as [_ [_ [-> _]]].
      destruct (String.eqb_spec p "") as [->|]; [|reflexivity]. cbn [andb]. destruct (digitc c); reflexivity.
  - cbn [all append] in O, A. apply andb_true_iff in O, A. destruct O as [O1 O2], A as [A1 A2].
    change (codes (String c ops ++ rest)) with (N_of_ascii c :: codes (ops ++ rest)). cbn [prefix_loop].
    rewrite rune_eqb, prefix_op. unfold is_op in O1. cbn [op_words].
    destruct (Ascii.eqb_spec c "$") as [->|N].
    + rewrite (IH O2 A2). reflexivity.
    + destruct (op_word c) as [w|]; [|discriminate]. rewrite (IH O2 A2). rewrite str_app_assoc. reflexivity.
Qed.

Lemma prefix_exact u ops rest : all is_op ops = true -> op_start rest = false ->
  all is_ascii (ops ++ rest) = true -> typeNamePrefix u (ops ++ rest) = prefix_spec ops rest.
Proof.
  intros O R A. unfold typeNamePrefix, prefix_spec. destruct (String.eqb (ops ++ rest) "") eqn:E; [reflexivity|].
  rewrite (runes_ascii _ A). destruct (Nat.eqb_spec (String.length (ops ++ rest)) 1) as [L|L].
  - destruct ops as [|c [|d ops]].
    + cbn [append] in *. destruct rest as [|c [|? ?]]; try discriminate L. cbn [op_start] in R. unfold is_op in R.
      cbn [codes prefix_loop op_words]. rewrite rune_eqb, prefix_op. destruct (Ascii.eqb_spec c "$") as [->|N]; [discriminate R|].
      destruct (op_word c); [discriminate R|]. cbn [all] in A. apply andb_true_iff in A. destruct A as [A _].
      destruct (ascii_small u c A) as [_ [_ [-> _]]].
      destruct (String.eqb_spec (String c "") "$") as [Q|_]; [congruence|]. cbn [String.eqb andb]. destruct (digitc c); reflexivity.
    + destruct rest; [|discriminate L]. cbn [append all] in *. rewrite andb_true_r in O. unfold is_op in O.
      cbn [codes prefix_loop op_words]. rewrite rune_eqb, prefix_op. destruct (Ascii.eqb_spec c "$") as [->|N]; [reflexivity|].
      destruct (op_word c) as [w|] eqn:W; [|discriminate O].
      destruct (String.eqb_spec (String c "") "$") as [Q|_]; [congruence|]. rewrite str_app_nil.
      destruct (String.eqb_spec w "") as [->|]; reflexivity.
    + discriminate L.
  - rewrite (prefix_ops u false ops rest O R A eq_refl ""). cbn [append].
    destruct (String.eqb_spec (ops ++ rest) "$") as [Q|_]; [rewrite Q in L; contradiction L; reflexivity|]. reflexivity.
Qed.

Lemma type_name_exact u ops rest w ps : all is_op ops = true -> op_start rest = false ->
  all is_ascii (ops ++ rest) = true -> (ops ++ rest)%string = (w ++ spell ps)%string ->
  all alnum w = true -> pieces ps ->
  schemaNameToTypeName u (ops ++ rest) = (prefix_spec ops rest ++ capital w ++ joined ps)%string.
Proof.
  intros O R A E W P. unfold schemaNameToTypeName. rewrite (prefix_exact u ops rest O R A). f_equal.
  rewrite (toCamel_str u _ A), E, camel_word by exact W. rewrite camel_pieces by exact P. reflexivity.
Qed.

(** Every ASCII name can be read so. *)
Lemma readable n : exists ops rest w ps, n = (ops ++ rest)%string /\ n = (w ++ spell ps)%string /\
  all is_op ops = true /\ op_start rest = false /\ all alnum w = true /\ pieces ps.
Proof.
  assert (A : exists ops rest, n = (ops ++ rest)%string /\ all is_op ops = true /\ op_start rest = false).
  { induction n as [|c r [ops [rest [E [O R]]]]]; [exists "", ""; auto|].
    destruct (is_op c) eqn:I.
    - exists (String c ops), rest. rewrite E. cbn [all]. rewrite I, O. auto.
    - exists "", (String c r). auto. }
  assert (B : exists w ps, n = (w ++ spell ps)%string /\ all alnum w = true /\ pieces ps).
  { clear A. induction n as [|c r [w [ps [E [W P]]]]]; [exists "", []; split; [reflexivity|split; [reflexivity|constructor]]|].
    destruct (alnum c) eqn:I.
    - exists (String c w), ps. rewrite E. cbn [all]. rewrite I, W. auto.
    - exists "", ((c, w) :: ps). rewrite E. split; [reflexivity|]. split; [reflexivity|]. constructor; auto. }
  destruct A as [ops [rest [A1 [A2 A3]]]], B as [w [ps [B1 [B2 B3]]]]. exists ops, rest, w, ps. auto 10.
Qed.

(** *** Cases *)

Lemma not_identifiers u :
  schemaNameToTypeName u "_1" = "1" /\ schemaNameToTypeName u "/a" = "a" /\
  (u_upper u 26085 = false -> u_lower u 26085 = false -> u_digit u 26085 = false ->
   schemaNameToTypeName u (encode [26085%N]) = "").
Proof.
  split; [vm_compute; reflexivity|]. split; [vm_compute; reflexivity|]. intros A B C.
  unfold schemaNameToTypeName, typeNamePrefix, toCamelCase.
  replace (runes (encode [26085%N])) with [26085%N] by (vm_compute; reflexivity).
  replace (runes (trim_spaces (encode [26085%N]))) with [26085%N] by (vm_compute; reflexivity).
  replace (String.eqb (encode [26085%N]) "") with false by (vm_compute; reflexivity).
  replace (Nat.eqb (String.length (encode [26085%N])) 1) with false by (vm_compute; reflexivity).
  cbn [prefix_loop camel]. unfold is_upper, is_lower, is_digit.
  change (26085 <? 128)%N with false. cbv iota. rewrite A, B, C. vm_compute. reflexivity.
Qed.

Lemma sanitize_both u s :
  (exists t, sanitizeGoIdentity u s = Ok t) /\ (word s -> sanitizeGoIdentity u s = Ok s).
Proof. split; [apply sanitize_total|apply sanitize_word]. Qed.

(** Go's identifiers over ASCII, keywords and predeclared names. *)
Definition go_ident (s : string) : Prop :=
  exists c r, s = String c r /\ (letterc c = true \/ c = "_"%char) /\
    all (fun c => alnum c || Ascii.eqb c "_") r = true.
Definition go_reserved : list string :=
  ["break"; "case"; "chan"; "const"; "continue"; "default"; "defer"; "else"; "fallthrough";
   "for"; "func"; "go"; "goto"; "if"; "import"; "interface"; "map"; "package"; "range";
   "return"; "select"; "struct"; "switch"; "type"; "var";
   "bool"; "byte"; "complex64"; "complex128"; "error"; "float32"; "float64"; "int"; "int8";
   "int16"; "int32"; "int64"; "rune"; "string"; "uint"; "uint8"; "uint16"; "uint32"; "uint64";
   "uintptr"; "true"; "false"; "iota"; "nil"; "append"; "cap"; "close"; "complex"; "copy";
   "delete"; "imag"; "len"; "make"; "new"; "panic"; "print"; "println"; "real"; "recover"].

Definition clean_char (first : bool) (c : ascii) : ascii :=
  if (if first then letterc c else alnum c) then c else "_"%char.

Lemma sanitize_runes_ascii u r : all is_ascii r = true -> forall f,
  encode (sanitize_runes u f (codes r)) =
  match r with EmptyString => "" | String c t => String (clean_char f c) (encode (sanitize_runes u false (codes t))) end.
Proof.
  intros A f. destruct r as [|c t]; [reflexivity|]. cbn [all] in A. apply andb_true_iff in A. destruct A as [A _].
  cbn [codes sanitize_runes encode].
  assert (L : (N_of_ascii c < 128)%N) by (apply N.ltb_lt; exact A).
  assert (V : isValidRuneForGoID u f (N_of_ascii c)
              = (if f then letterc c else alnum c) || Ascii.eqb c "_").
  { unfold isValidRuneForGoID, is_number, is_letter. apply N.ltb_lt in L. rewrite L.
    rewrite rune_eqb. unfold letterc, alnum. fold (upperc c) (lowerc c) (digitc c). destruct f; cbn [andb].
    - destruct (digitc c) eqn:D; [|rewrite orb_false_r; reflexivity].
      unfold digitc, upperc, lowerc, a_digit, a_upper, a_lower in *. apply within_iff in D.
      replace (within 65 90 (N_of_ascii c)) with false by (symmetry; apply within_out; lia).
      replace (within 97 122 (N_of_ascii c)) with false by (symmetry; apply within_out; lia). cbn [orb].
      destruct (Ascii.eqb_spec c "_") as [->|]; [|reflexivity]. cbn in D. lia.
    - destruct (upperc c), (lowerc c), (digitc c), (Ascii.eqb c "_"); reflexivity. }
  rewrite V. unfold clean_char. destruct (if f then letterc c else alnum c) eqn:E; cbn [orb].
  - rewrite encode_small, ascii_N_embedding by exact L. reflexivity.
  - destruct (Ascii.eqb_spec c "_") as [->|N].
    + reflexivity.
    + reflexivity.
Qed.

Lemma sanitize_rest u r : all is_ascii r = true ->
  all (fun c => alnum c || Ascii.eqb c "_") (encode (sanitize_runes u false (codes r))) = true.
Proof.
  induction r as [|c r IH]; intros A; [reflexivity|]. rewrite sanitize_runes_ascii by exact A.
  cbn [all] in *. apply andb_true_iff in A. destruct A as [_ A]. rewrite (IH A), andb_true_r.
  unfold clean_char. destruct (alnum c) eqn:E; [rewrite E; reflexivity|reflexivity].
Qed.

Lemma not_reserved s : isGoKeyword s || isPredeclared s = false -> ~ In s go_reserved.
Proof.
  intros H I. apply orb_false_iff in H. destruct H as [H1 H2]. unfold isGoKeyword, isPredeclared in *.
  assert (Q : go_reserved = keywords ++ predeclared) by reflexivity. rewrite Q in I. apply in_app_or in I.
  destruct I as [I|I].
  - assert (X : existsb (String.eqb s) keywords = true) by (apply existsb_exists; exists s; split; [exact I|apply String.eqb_refl]).
    congruence.
  - assert (X : existsb (String.eqb s) predeclared = true) by (apply existsb_exists; exists s; split; [exact I|apply String.eqb_refl]).
    congruence.
Qed.

Lemma sanitized u c r t : all is_ascii (String c r) = true ->
  sanitizeGoIdentity u (String c r) = Ok t -> go_ident t /\ ~ In t go_reserved.
Proof.
  intros A. unfold sanitizeGoIdentity. rewrite (runes_ascii _ A).
  rewrite sanitize_runes_ascii by exact A. cbn [all] in A. apply andb_true_iff in A. destruct A as [A1 A2].
  pose proof (sanitize_rest u r A2) as R. set (w := encode _) in *. clearbody w. cbv zeta.
  destruct (isValidGoIdentity u _); [|discriminate]. intros E. injection E as <-.
  destruct (isGoKeyword (String (clean_char true c) w) || isPredeclared (String (clean_char true c) w)) eqn:K.
  - split.
    + exists "_"%char, (String (clean_char true c) w). split; [reflexivity|]. split; [right; reflexivity|].
      cbn [all]. rewrite R, andb_true_r. unfold clean_char. destruct (letterc c) eqn:E; [|reflexivity].
      unfold letterc in E. unfold alnum. rewrite E. reflexivity.
    + intros I. change ("_" ++ String (clean_char true c) w)%string with (String "_" (String (clean_char true c) w)) in I.
      cbn in I. repeat (destruct I as [I|I]; [discriminate I|]). exact I.
  - split; [|apply not_reserved, K]. exists (clean_char true c), w. split; [reflexivity|]. split; [|exact R].
    unfold clean_char. destruct (letterc c) eqn:E; auto.
Qed.

Lemma same_names u :
  schemaNameToTypeName u "foo_bar" = schemaNameToTypeName u "fooBar" /\
  schemaNameToTypeName u "name" = schemaNameToTypeName u "Name" /\
  schemaNameToTypeName u "a b" = schemaNameToTypeName u "aB".
Proof. vm_compute. auto. Qed.

Lemma plain_distinct u c r c' r' :
  letterc c = true -> letterc c' = true -> all alnum r = true -> all alnum r' = true ->
  (schemaNameToTypeName u (String c r) = schemaNameToTypeName u (String c' r') <->
   r = r' /\ upc c = upc c').
Proof.
  intros H H' A A'. rewrite !type_name_plain by assumption. split.
  - intros E. injection E as E1 E2. auto.
  - intros [-> ->]. reflexivity.
Qed.

Lemma camel_distinct u c r c' r' :
  lowerc c = true -> lowerc c' = true -> all alnum r = true -> all alnum r' = true ->
  schemaNameToTypeName u (String c r) = schemaNameToTypeName u (String c' r') ->
  String c r = String c' r'.
Proof.
  intros H H' A A' E.
  apply plain_distinct in E; auto; try (unfold letterc; rewrite ?H, ?H'; apply orb_true_r).
  destruct E as [-> E]. f_equal. unfold upc in E. rewrite H, H' in E.
  unfold lowerc, a_lower in *. apply within_iff in H, H'.
  apply (f_equal N_of_ascii) in E. rewrite !N_ascii_embedding in E by lia.
  rewrite <- (ascii_N_embedding c), <- (ascii_N_embedding c'). f_equal. lia.
Qed.

Lemma constant_lost u : exists vs m,
  NoDup vs /\ sanitizeEnumNames u vs vs = Ok m /\ In "A" vs /\ forall k, ~ In (k, "A") m.
Proof.
  exists ["a"; "A"; "a1"], [("A", "a"); ("A1", "a1")]. split; [|split; [vm_compute; reflexivity|]].
  - repeat constructor; cbn; intuition discriminate.
  - split; [right; left; reflexivity|]. intros k [E|[E|[]]]; discriminate.
Qed.

Lemma apart_a u : apart u ["a"; "A"].
Proof.
  assert (Q : forall x, In x ["a"; "A"] -> schemaNameToTypeName u x = "A").
  { intros x [<-|[<-|[]]]; vm_compute; reflexivity. }
  intros a b d Ha Hb Hd _. rewrite (Q a Ha), (Q b Hb). destruct d; [congruence|discriminate].
Qed.
