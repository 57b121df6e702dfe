(** Proofs about the comments of GenName.v. *)
From Verif Require Import Prelude Strings Util GenName GenNameProofs.
Local Open Scope string_scope.
Local Open Scope list_scope.

Fixpoint lines_of (s : string) : list string :=
  match s with
  | EmptyString => [""]
  | String c r =>
      if Ascii.eqb c nl then "" :: lines_of r
      else if Ascii.eqb c cr then
        match r with
        | String d r' => if Ascii.eqb d nl then "" :: lines_of r' else "" :: lines_of r
        | EmptyString => ["" ; ""]
        end
      else match lines_of r with
           | p :: ps => String c p :: ps
           | [] => [String c ""]
           end
  end.

(** *** Splitting at newlines *)

Lemma prefix_nl c r : String.prefix newline (String c r) = Ascii.eqb c nl.
Proof.
  unfold newline. cbn [String.prefix]. destruct (ascii_dec nl c) as [<-|N].
  - rewrite Ascii.eqb_refl. destruct r; reflexivity.
  - symmetry. apply Ascii.eqb_neq. congruence.
Qed.

Lemma split_nl c r : split_str (String c r) newline =
  if Ascii.eqb c nl then "" :: split_str r newline
  else match split_str r newline with p :: ps => String c p :: ps | [] => [String c ""] end.
Proof.
  unfold split_str. cbn [split_aux]. rewrite prefix_nl. destruct (Ascii.eqb c nl); [reflexivity|].
  destruct (split_aux newline 0 r); reflexivity.
Qed.

Lemma split_ne s : split_str s newline <> [].
Proof.
  destruct s as [|c r]; [discriminate|]. rewrite split_nl. destruct (Ascii.eqb c nl); [discriminate|].
  destruct (split_str r newline); discriminate.
Qed.

Lemma crlf_cons c d r : crlf (String c (String d r)) =
  if Ascii.eqb c cr && Ascii.eqb d nl then String nl (crlf r) else String c (crlf (String d r)).
Proof. reflexivity. Qed.

Lemma lines_split n : forall s, String.length s <= n -> split_str (cr_nl (crlf s)) newline = lines_of s.
Proof.
  induction n as [|n IH]; intros s L.
  - destruct s; [reflexivity|cbn in L; lia].
  - destruct s as [|c r]; [reflexivity|]. cbn [String.length] in L.
    destruct r as [|d r'].
    + cbn [crlf cr_nl lines_of]. destruct (Ascii.eqb_spec c cr) as [->|N].
      * reflexivity.
      * rewrite split_nl. destruct (Ascii.eqb c nl); reflexivity.
    + rewrite crlf_cons. destruct (Ascii.eqb c cr && Ascii.eqb d nl) eqn:E.
      * apply andb_true_iff in E. destruct E as [E1 E2]. apply Ascii.eqb_eq in E1, E2. subst c d.
        cbn [cr_nl lines_of]. change (Ascii.eqb nl cr) with false. change (Ascii.eqb cr nl) with false.
        change (Ascii.eqb cr cr) with true. change (Ascii.eqb nl nl) with true. cbv iota.
        rewrite split_nl. change (Ascii.eqb nl nl) with true. cbv iota. rewrite IH by (cbn in L; lia). reflexivity.
      * change (cr_nl (String c (crlf (String d r')))) with
          (String (if Ascii.eqb c cr then nl else c) (cr_nl (crlf (String d r')))).
        rewrite split_nl. rewrite IH by (cbn [String.length] in *; lia).
        cbn [lines_of]. destruct (Ascii.eqb_spec c cr) as [->|N].
        -- change (Ascii.eqb nl nl) with true. change (Ascii.eqb cr nl) with false. cbv iota.
           change ((Ascii.eqb d nl) = false) in E. rewrite E. reflexivity.
        -- destruct (Ascii.eqb c nl); reflexivity.
Qed.

Definition no_nl (s : string) : bool := all (fun c => negb (Ascii.eqb c nl)) s.

Lemma split_no_nl s : no_nl s = true -> split_str s newline = [s].
Proof.
  induction s as [|c r IH]; intros H; [reflexivity|]. unfold no_nl in *. cbn [all] in H. apply andb_true_iff in H. destruct H as [H1 H2].
  rewrite split_nl. apply negb_true_iff in H1. rewrite H1, (IH H2). reflexivity.
Qed.

Lemma split_app a b : split_str (a ++ newline ++ b) newline = split_str a newline ++ split_str b newline.
Proof.
  induction a as [|c r IH].
  - change ("" ++ newline ++ b)%string with (String nl b). rewrite split_nl, Ascii.eqb_refl. reflexivity.
  - cbn [append]. rewrite !split_nl. destruct (Ascii.eqb c nl); [rewrite IH; reflexivity|].
    rewrite IH. destruct (split_str r newline) as [|p ps] eqn:E; [exfalso; exact (split_ne r E)|]. reflexivity.
Qed.

Lemma concat_cons a b r : String.concat newline (a :: b :: r) = (a ++ newline ++ String.concat newline (b :: r))%string.
Proof. reflexivity. Qed.

Lemma split_concat ls : ls <> [] -> Forall (fun l => no_nl l = true) ls ->
  split_str (String.concat newline ls) newline = ls.
Proof.
  induction ls as [|a r IH]; intros N F; [congruence|]. inversion F as [|? ? F1 F2]; subst.
  destruct r as [|b r]; [cbn [String.concat]; apply split_no_nl, F1|].
  rewrite concat_cons, split_app, (split_no_nl a F1), IH by (auto; discriminate). reflexivity.
Qed.

Lemma lines_no_nl n : forall s, String.length s <= n -> Forall (fun l => no_nl l = true) (lines_of s).
Proof.
  induction n as [|n IH]; intros s L; (destruct s as [|c r]; [repeat constructor|]); cbn [String.length] in L; [lia|].
  cbn [lines_of]. destruct (Ascii.eqb c nl) eqn:E1; [constructor; [reflexivity|apply IH; lia]|].
  destruct (Ascii.eqb c cr) eqn:E2.
  - destruct r as [|d r']; [repeat constructor|]. cbn [String.length] in L.
    destruct (Ascii.eqb d nl); constructor; try reflexivity; apply IH; cbn [String.length]; lia.
  - assert (F := IH r ltac:(lia)). destruct (lines_of r) as [|p ps].
    + constructor; [unfold no_nl; cbn [all]; rewrite E1; reflexivity|constructor].
    + inversion F as [|? ? F1 F2]; subst. constructor; [|exact F2]. unfold no_nl in *. cbn [all]. rewrite E1. exact F1.
Qed.

Lemma lines_no_cr n : forall s, String.length s <= n ->
  Forall (fun l => all (fun c => negb (Ascii.eqb c cr)) l = true) (lines_of s).
Proof.
  induction n as [|n IH]; intros s L; (destruct s as [|c r]; [repeat constructor|]); cbn [String.length] in L; [lia|].
  cbn [lines_of]. destruct (Ascii.eqb c nl) eqn:E1; [constructor; [reflexivity|apply IH; lia]|].
  destruct (Ascii.eqb c cr) eqn:E2.
  - destruct r as [|d r']; [repeat constructor|]. cbn [String.length] in L.
    destruct (Ascii.eqb d nl); constructor; try reflexivity; apply IH; cbn [String.length]; lia.
  - assert (F := IH r ltac:(lia)). destruct (lines_of r) as [|p ps].
    + constructor; [cbn [all]; rewrite E2; reflexivity|constructor].
    + inversion F as [|? ? F1 F2]; subst. constructor; [|exact F2]. cbn [all]. rewrite E2. exact F1.
Qed.

(** *** The text of a comment *)

Definition comment_lines (prefix : string) (ls : list string) : list string :=
  match ls with
  | [] => []
  | l :: r => ((if String.eqb prefix "" then "//" else ("// " ++ prefix)) ++ " " ++ l)%string
              :: map (fun l => ("// " ++ l)%string) r
  end.

Definition drop_empty (ls : list string) : list string :=
  if Nat.ltb 1 (length ls) && String.eqb (last ls "x") "" then removelast ls else ls.

Lemma str_length_app a b : String.length (a ++ b) = String.length a + String.length b.
Proof. induction a as [|c r IH]; [reflexivity|]. cbn. rewrite IH. reflexivity. Qed.

Lemma trim_suffix_app x p : trim_suffix (x ++ p) p = x.
Proof.
  induction x as [|c x IH].
  - cbn [append]. destruct p as [|d p]; [reflexivity|]. cbn [trim_suffix]. rewrite String.eqb_refl. reflexivity.
  - cbn [append trim_suffix]. destruct (String.eqb_spec (String c (x ++ p)) p) as [E|E].
    + apply (f_equal String.length) in E. cbn [String.length] in E. rewrite str_length_app in E. lia.
    + rewrite IH. reflexivity.
Qed.

Lemma trim_suffix_none s p : (forall x, s <> (x ++ p)%string) -> trim_suffix s p = s.
Proof.
  induction s as [|c s IH]; intros H; cbn [trim_suffix].
  - destruct (String.eqb_spec "" p) as [<-|]; reflexivity.
  - destruct (String.eqb_spec (String c s) p) as [E|E]; [exfalso; exact (H "" (eq_sym (eq_sym E)))|].
    rewrite IH; [reflexivity|]. intros x Q. apply (H (String c x)). rewrite Q. reflexivity.
Qed.

Lemma concat_snoc ls x : ls <> [] -> String.concat newline (ls ++ [x]) = (String.concat newline ls ++ newline ++ x)%string.
Proof.
  induction ls as [|a r IH]; intros N; [congruence|]. destruct r as [|b r].
  - reflexivity.
  - cbn [app]. rewrite !concat_cons. cbn [app] in IH. rewrite IH by discriminate. rewrite !str_app_assoc. reflexivity.
Qed.

Lemma comment_lines_snoc prefix ls x : ls <> [] ->
  comment_lines prefix (ls ++ [x]) = comment_lines prefix ls ++ ["// " ++ x]%string.
Proof. destruct ls as [|a r]; [congruence|]. intros _. cbn. rewrite map_app. reflexivity. Qed.

Lemma comment_no_nl prefix ls : no_nl prefix = true -> Forall (fun l => no_nl l = true) ls ->
  Forall (fun l => no_nl l = true) (comment_lines prefix ls).
Proof.
  intros P F. destruct ls as [|a r]; [constructor|]. inversion F as [|? ? F1 F2]; subst. cbn [comment_lines].
  constructor.
  - unfold no_nl in *. rewrite !all_app, F1. destruct (String.eqb prefix ""); [reflexivity|].
    rewrite all_app, P. reflexivity.
  - apply Forall_forall. intros l I. apply in_map_iff in I. destruct I as [x [<- I]].
    rewrite Forall_forall in F2. unfold no_nl. rewrite all_app. exact (F2 x I).
Qed.

Lemma comment_ne prefix ls : ls <> [] -> comment_lines prefix ls <> [].
Proof. destruct ls; [congruence|discriminate]. Qed.

Lemma list_snoc {A} (l : list A) : l <> [] -> exists r x, l = r ++ [x].
Proof. intros N. destruct (exists_last N) as [r [x E]]. exists r, x. exact E. Qed.

Lemma last_snoc {A} (l : list A) x d : last (l ++ [x]) d = x.
Proof. apply last_last. Qed.

Lemma blank_empty s : s = "" -> blank s = true.
Proof. intros ->. reflexivity. Qed.

Lemma trim_comment prefix ls : no_nl prefix = true -> Forall (fun l => no_nl l = true) ls -> ls <> [] ->
  trim_suffix (String.concat newline (comment_lines prefix ls)) (newline ++ "// ")
  = String.concat newline (comment_lines prefix (drop_empty ls)).
Proof.
  intros P F N. destruct (list_snoc ls N) as [r [x ->]]. destruct r as [|a r].
  - unfold drop_empty. cbn [app length Nat.ltb Nat.leb andb]. apply trim_suffix_none. intros y E.
    apply (f_equal (fun s => length (split_str s newline))) in E.
    rewrite split_concat in E; [|apply comment_ne; discriminate|apply comment_no_nl; assumption].
    rewrite split_app, app_length in E. cbn [comment_lines length map app] in E.
    pose proof (split_ne y) as Q. destruct (split_str y newline); [congruence|]. cbn in E. lia.
  - assert (R : a :: r <> []) by discriminate. set (q := a :: r) in *. clearbody q.
    rewrite comment_lines_snoc by exact R. unfold drop_empty. rewrite last_snoc, removelast_last, app_length.
    assert (Q : Nat.ltb 1 (length q + length [x]) = true).
    { destruct q; [congruence|]. apply Nat.ltb_lt. cbn [length]. lia. }
    rewrite Q. cbn [andb]. destruct (String.eqb_spec x "") as [->|Nx].
    + rewrite concat_snoc by (apply comment_ne, R). apply trim_suffix_app.
    + rewrite comment_lines_snoc by exact R. apply trim_suffix_none. intros y E.
      apply (f_equal (fun s => last (split_str s newline) "")) in E.
      rewrite <- (comment_lines_snoc prefix q x R) in E.
      rewrite split_concat in E; [|apply comment_ne; destruct q; discriminate|apply comment_no_nl; assumption].
      rewrite split_app, comment_lines_snoc in E by exact R. change (split_str "// " newline) with ["// "] in E.
      rewrite !last_snoc in E. apply Nx. cbn in E. injection E as E. exact E.
Qed.

Lemma lines_ne s : lines_of s <> [].
Proof.
  destruct s as [|c r]; [discriminate|]. cbn [lines_of]. destruct (Ascii.eqb c nl); [discriminate|].
  destruct (Ascii.eqb c cr); [destruct r as [|d r']; [discriminate|destruct (Ascii.eqb d nl); discriminate]|].
  destruct (lines_of r); discriminate.
Qed.

Lemma comment_text text prefix : no_nl prefix = true -> blank text = false ->
  stringToGoCommentWithPrefix text prefix
  = String.concat newline (comment_lines prefix (drop_empty (lines_of text))).
Proof.
  intros P B. unfold stringToGoCommentWithPrefix. rewrite B. cbv zeta.
  rewrite (lines_split (String.length text) text (le_n _)).
  change (match lines_of text with [] => [] | l :: ls => _ end) with (comment_lines prefix (lines_of text)).
  apply trim_comment; [exact P|apply (lines_no_nl (String.length text)), le_n|apply lines_ne].
Qed.

Lemma drop_forall (p : string -> Prop) ls : Forall p ls -> Forall p (drop_empty ls).
Proof.
  intros F. unfold drop_empty. destruct (_ && _); [|exact F].
  destruct ls as [|a r]; [exact F|]. destruct (list_snoc (a :: r)) as [q [x E]]; [discriminate|]. rewrite E in *.
  rewrite removelast_last. apply Forall_app in F. tauto.
Qed.

Lemma drop_ne ls : ls <> [] -> drop_empty ls <> [].
Proof.
  intros N. unfold drop_empty. destruct (Nat.ltb_spec 1 (length ls)) as [L|L]; cbn [andb]; [|exact N].
  destruct (String.eqb _ ""); [|exact N]. destruct ls as [|a [|b r]]; [congruence|cbn in L; lia|discriminate].
Qed.

(** Every line of a comment is a comment. *)
Lemma comment_commented text prefix l : no_nl prefix = true ->
  stringToGoCommentWithPrefix text prefix <> "" ->
  In l (split_str (stringToGoCommentWithPrefix text prefix) newline) -> has_prefix l "// " = true.
Proof.
  intros P N I. destruct (blank text) eqn:B; [unfold stringToGoCommentWithPrefix in N; rewrite B in N; congruence|].
  rewrite (comment_text text prefix P B) in I.
  assert (F : Forall (fun l => no_nl l = true) (drop_empty (lines_of text))).
  { apply drop_forall, (lines_no_nl (String.length text)), le_n. }
  pose proof (drop_ne _ (lines_ne text)) as D.
  rewrite split_concat in I; [|apply comment_ne, D|apply comment_no_nl; assumption].
  destruct (drop_empty (lines_of text)) as [|x r]; [destruct I|]. cbn [comment_lines] in I. destruct I as [<-|I].
  - destruct (String.eqb prefix ""); unfold has_prefix; cbn; [destruct x|destruct (prefix ++ String " " x)%string]; reflexivity.
  - apply in_map_iff in I. destruct I as [y [<- _]]. unfold has_prefix. cbn. destruct y; reflexivity.
Qed.

Lemma comment_blank text prefix : blank text = true -> stringToGoCommentWithPrefix text prefix = "".
Proof. intros H. unfold stringToGoCommentWithPrefix. rewrite H. reflexivity. Qed.

Lemma lines_single s : no_nl s = true -> Forall (fun c => c <> cr) (list_ascii_of_string s) -> lines_of s = [s].
Proof.
  induction s as [|c r IH]; intros N F; [reflexivity|]. unfold no_nl in *. cbn [all] in N. apply andb_true_iff in N.
  destruct N as [N1 N2]. apply negb_true_iff in N1. cbn [list_ascii_of_string] in F. inversion F as [|? ? F1 F2]; subst.
  cbn [lines_of]. rewrite N1. apply Ascii.eqb_neq in F1. rewrite F1, (IH N2 F2). reflexivity.
Qed.

Lemma deprecated_comment reason : no_nl reason = true ->
  Forall (fun c => c <> cr) (list_ascii_of_string reason) ->
  deprecationComment reason =
  if String.eqb reason "" then "// Deprecated:" else ("// Deprecated: " ++ reason)%string.
Proof.
  intros N F. unfold deprecationComment. destruct (String.eqb_spec reason "") as [->|D]; [vm_compute; reflexivity|].
  set (t := ("Deprecated:" ++ " " ++ reason)%string).
  rewrite comment_text; [|reflexivity|reflexivity].
  assert (L : lines_of t = [t]).
  { apply lines_single.
    - unfold no_nl, t. rewrite all_app. cbn [append all]. cbn [andb]. exact N.
    - unfold t. change ("Deprecated:" ++ " " ++ reason)%string with ("Deprecated: " ++ reason)%string.
      cbn [append list_ascii_of_string]. repeat (constructor; [intros X; vm_compute in X; discriminate|]). exact F. }
  rewrite L. reflexivity.
Qed.
