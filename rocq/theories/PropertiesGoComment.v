(** Properties of the comments of generated Go code: C102. *)
From Verif Require Import Prelude Strings Version Util GenName GenNameProofs GenCommentProofs Gocode GoComment GoCommentProofs GoCommentFacts
  PropertiesGenName.
Local Open Scope string_scope.
Local Open Scope list_scope.

(** *** C102 *)

(** Unless [UseGoDeclInComments] is set, comments should be the descriptions,
    without the name in front. But the name can stay, the generator can panic, and
    parts of the description can be lost: *)
Theorem C102_description_refuted : forall u, exists n,
  go_name n /\
  (exists text, removeGoFieldComment u String.eqb (comment_of n text) = Ok (comment_of n text) /\
     comment_of n text <> comment_of "" text) /\
  (exists text, removeGoFieldComment u String.eqb (comment_of n text) = Panic) /\
  (exists text, fixTODOComments u String.eqb [DGen (comment_of n text) [SType n (TStruct [])]]
     = Ok [DGen ["// TODO rename"] [SType n (TStruct [])]] /\ comment_of "" text = ["// Panels of a board, TODO rename"]).
Proof. exact comments_differ. Qed.
Print Assumptions C102_description_refuted.

(** The name stays if the description begins with a word in lower case or is one
    word. *)
Theorem C102_name_kept : forall u fold n text, go_name n -> blank text = false ->
  (forall w r ls, lines_of text = (w ++ " " ++ r)%string :: ls -> no_space w = true ->
     fold w n = false -> lower_first u w = true ->
     removeGoFieldComment u fold (comment_of n text) = Ok (comment_of n text)) /\
  (forall l ls, lines_of text = l :: ls -> no_space l = true ->
     removeGoFieldComment u fold (comment_of n text) = Ok (comment_of n text)).
Proof.
  exact (fun u fold n text N B => conj (fun w r ls => comment_kept u fold n text w r ls N B)
    (fun l ls => comment_one_word u fold n text l ls N B)).
Qed.
Print Assumptions C102_name_kept.

(** A description that begins with a space makes the generator panic, as does an
    empty declaration. *)
Theorem C102_panics : forall u fold,
  (forall n text r ls, go_name n -> blank text = false ->
     lines_of text = (" " ++ r)%string :: ls -> fold "" n = false ->
     removeGoFieldComment u fold (comment_of n text) = Panic) /\
  (forall f c g, Forall (fun d => exists d', shown u fold d d') f ->
     fixTODOComments u fold (f ++ DGen c [] :: g) = Panic).
Proof. exact (fun u fold => conj (comment_panics u fold) (file_empty u fold)). Qed.
Print Assumptions C102_panics.

(** What comes before the last [TODO] of the first line is lost. *)
Theorem C102_todo : forall x y rest, no_nl (x ++ " TODO" ++ y) = true -> ~ has_todo y ->
  fixTODOComment (("// " ++ x ++ " TODO" ++ y)%string :: rest) = ("// TODO" ++ y)%string :: rest.
Proof. exact todo_cuts. Qed.
Print Assumptions C102_todo.

(** Where the name does not begin with one of the letters A to Z, a part of
    the description that looks like a comment can replace all of it. *)
Theorem C102_words_refuted : forall u, exists n text,
  removeGoFieldComment u String.eqb (comment_of n text) = Ok ["// Def ghi"] /\
  comment_of "" text = ["// is // Abc Def ghi"].
Proof.
  exact (fun u => ex_intro _ (encode [201%N]) (ex_intro _ "is // Abc Def ghi" (conj eq_refl eq_refl))).
Qed.
Print Assumptions C102_words_refuted.

(** What holds: a description whose first line begins with a word that is the
    name or does not begin in lower case, and goes on, becomes the comment, *)
Theorem C102_description_partial : forall u fold n text w r ls names, go_name n -> blank text = false ->
  lines_of text = (w ++ " " ++ r)%string :: ls -> w <> "" -> no_space w = true ->
  fold w n = true \/ lower_first u w = false -> names <> [] ->
  fix_field u fold names (comment_of n text) = Ok (comment_of "" text).
Proof.
  exact (fun u fold n text w r ls names N B E W S1 C M =>
    eq_trans (field_as_type u fold names _ M) (comment_dropped u fold n text w r ls N B E W S1 C)).
Qed.
Print Assumptions C102_description_partial.

(** for types too unless there is a [TODO]; and a file changes in nothing else. *)
Theorem C102_file_partial : forall u fold f f',
  Forall2 (shown u fold) f f' -> fixTODOComments u fold f = Ok f'.
Proof. exact file_shown. Qed.
Print Assumptions C102_file_partial.

(** Only the first line of a comment ever changes, and nothing of the comment of
    an embedded field. *)
Theorem C102_lines : forall u fold h t,
  (forall c, removeGoFieldComment u fold (h :: t) = Ok c -> exists h', c = h' :: t) /\
  (exists h', fixTODOComment (h :: t) = h' :: t) /\
  (forall l, ~ has_todo l -> fixTODOComment (("// " ++ l)%string :: t) = ("// " ++ l)%string :: t) /\
  (forall names c, fix_field u fold names (h :: t) = Ok c -> c <> h :: t -> names <> []) /\
  fix_field u fold [] (h :: t) <> Panic.
Proof.
  exact (fun u fold h t => conj (remove_rest u fold h t) (conj (ex_intro _ _ eq_refl) (conj (fun l => todo_keeps l t)
    (field_embedded u fold (h :: t))))).
Qed.
Print Assumptions C102_lines.

Definition shown_before : list decl :=
  [DGen (comment_of "Panel" ("A panel of" ++ newline ++ "a board."))%string [SType "Panel" (TStruct [])];
   DGen (comment_of "Link" "link to a board")%string [SType "Link" (TStruct [])];
   DGen (comment_of "Kind" "kind")%string [SType "Kind" (TIdent "string")];
   DGen ["// X defines model for x."] [SType "X" (TIdent "string")];
   DGen ["// Defines values for Kind."] [SValue ["KindA"] None]].
Definition shown_after : list decl :=
  [DGen ["// A panel of"; "// a board."] [SType "Panel" (TStruct [])];
   DGen ["// Link link to a board"] [SType "Link" (TStruct [])];
   DGen ["// Kind kind"] [SType "Kind" (TIdent "string")];
   DGen ["// X defines model for x."] [SType "X" (TIdent "string")];
   DGen ["// Defines values for Kind."] [SValue ["KindA"] None]].

Example C102_cases :
  Forall2 (shown ascii_only String.eqb) shown_before shown_after /\
  fixTODOComments ascii_only String.eqb shown_before = Ok shown_after /\
  fixTODOComment ["// Panel is TODO a TODO b"; "// c"] = ["// TODO b"; "// c"] /\
  removeGoFieldComment ascii_only String.eqb (comment_of "Foo" " a b") = Panic /\
  fix_field ascii_only String.eqb ["Foo"] ["// Foo Foo is it"] = Ok ["// Foo is it"].
Proof.
  split; [|vm_compute; auto].
  assert (G : forall c r, a_to_z c = true -> no_space (String c r) = true -> no_nl (String c r) = true -> go_name (String c r)).
  { intros c r C N L. split; [exists c, r; auto|auto]. }
  assert (T : forall l, contains l " TODO" = false -> ~ has_todo l).
  { intros l C (x & y & ->). revert C. induction x as [|c x IH].
    - cbn. destruct y; discriminate.
    - cbn. intros C. apply orb_false_iff in C. exact (IH (proj2 C)). }
  unfold shown_before, shown_after. repeat (apply Forall2_cons || apply Forall2_nil).
  - apply (shown_without _ _ "Panel" ("A panel of" ++ newline ++ "a board.") "A" "panel of" ["a board."]);
      try reflexivity; try (right; reflexivity); try discriminate; [apply G; reflexivity|apply T; reflexivity].
  - apply (shown_with _ _ "Link" "link to a board" "link" "to a board" []);
      try reflexivity; [apply G; reflexivity|apply T; reflexivity].
  - apply (shown_word _ _ "Kind" "kind" "kind" []); try reflexivity. apply G; reflexivity.
  - apply (shown_default _ _ "X" "x"); try reflexivity. apply G; reflexivity.
  - apply shown_other; [discriminate|]. intros h r E. injection E as <- <-. exists "Defines values for Kind.".
    split; [reflexivity|apply T; reflexivity].
Qed.

(** The comments of functions are not comments of types: a name at their
    beginning stays, unless they say TODO. *)
Theorem C102_functions : forall u fold c r n sig,
  (forall h t, c = h :: t -> exists l, h = ("// " ++ l)%string /\ ~ has_todo l) ->
  fixTODOComments u fold [DFunc c r n sig] = Ok [DFunc c r n sig].
Proof. exact functions_kept. Qed.
Print Assumptions C102_functions.
