(** C48, C49, C50, C64: paths, labels and overlays. *)
From Verif Require Import Prelude Strings Paths Util UtilProofs.
Local Open Scope string_scope.
Local Open Scope list_scope.

Definition lbl (s : string) : sel := mkSel s false.
Definition opt (s : string) : sel := mkSel s true.

(** *** C48 *)

(** [begins p q rest]: [p] is [q], up to optional marks, followed by [rest]. *)
Theorem C48_has_prefix :
  forall p q, pathHasPrefix p q = true <-> exists rest, begins p q rest.
Proof. exact hasPrefix_spec. Qed.
Print Assumptions C48_has_prefix.

Example C48_has_prefix_ex :
  begins [lbl "a"; opt "b"; lbl "c"] [lbl "a"; lbl "b"] [lbl "c"] /\
  pathHasPrefix [lbl "a"; opt "b"; lbl "c"] [lbl "a"; lbl "b"] = true /\
  pathHasPrefix [lbl "a"; lbl "c"] [lbl "a"; lbl "b"] = false.
Proof. split; [exists [lbl "a"; opt "b"]; split; reflexivity|]. split; reflexivity. Qed.

Theorem C48_replace :
  forall p old new,
    (forall rest, begins p old rest -> rest <> [] -> replacePathPrefix p old new = new ++ rest) /\
    ((forall rest, begins p old rest -> rest = []) -> replacePathPrefix p old new = p).
Proof. exact replace_spec. Qed.
Print Assumptions C48_replace.

Example C48_replace_ex :
  replacePathPrefix [lbl "a"; opt "b"; lbl "c"] [lbl "a"; lbl "b"] [lbl "x"] = [lbl "x"; lbl "c"] /\
  replacePathPrefix [lbl "a"; lbl "b"] [lbl "a"; lbl "b"] [lbl "x"] = [lbl "a"; lbl "b"].
Proof. split; reflexivity. Qed.

Theorem C48_replace_back :
  forall p old new rest, begins p old rest -> rest <> [] ->
    replacePathPrefix (replacePathPrefix p old new) new old = old ++ rest /\
    pathsAreEq (replacePathPrefix (replacePathPrefix p old new) new old) p = true /\
    (p = old ++ rest -> replacePathPrefix (replacePathPrefix p old new) new old = p).
Proof. exact replace_back. Qed.
Print Assumptions C48_replace_back.

Example C48_replace_back_ex :
  begins [lbl "a"; lbl "b"; lbl "c"] [lbl "a"; lbl "b"] [lbl "c"] /\
  replacePathPrefix (replacePathPrefix [lbl "a"; lbl "b"; lbl "c"] [lbl "a"; lbl "b"] []) [] [lbl "a"; lbl "b"]
  = [lbl "a"; lbl "b"; lbl "c"].
Proof. split; [exists [lbl "a"; lbl "b"]; split; reflexivity|reflexivity]. Qed.

Theorem C48_paths_equivalence :
  (forall p, pathsAreEq p p = true) /\
  (forall p q, pathsAreEq p q = true -> pathsAreEq q p = true) /\
  (forall p q r, pathsAreEq p q = true -> pathsAreEq q r = true -> pathsAreEq p r = true) /\
  (forall p q, pathsAreEq p q = true <-> same_labels p q).
Proof. exact paths_equiv. Qed.
Print Assumptions C48_paths_equivalence.

Theorem C48_last_selector :
  forall p s,
    (p = [] -> lastSelectorEq p s = Panic) /\
    (forall q x, p = q ++ [x] -> exists b, lastSelectorEq p s = Ok b /\ (b = true <-> sel_label x = sel_label s)).
Proof. exact last_spec. Qed.
Print Assumptions C48_last_selector.

Example C48_last_selector_ex :
  lastSelectorEq [lbl "a"; opt "b"] (lbl "b") = Ok true /\ lastSelectorEq [lbl "a"; opt "b"] (lbl "a") = Ok false.
Proof. split; reflexivity. Qed.

(** *** C49 *)

Theorem C49_prefix_absent_refuted :
  exists p q, ~ (exists rest, begins p q rest) /\ trimPathPrefix p q <> p.
Proof. exact trim_strips_partial. Qed.
Print Assumptions C49_prefix_absent_refuted.

(** A prefix that is there is stripped, except from a path of one selector; a
    path whose first selector is another one is unchanged. *)
Theorem C49_prefix_present_partial :
  (forall p q rest, length p <> 1 -> begins p q rest -> trimPathPrefix p q = rest) /\
  (forall p q a b, nth_error p 0 = Some a -> nth_error q 0 = Some b -> sel_label a <> sel_label b ->
     trimPathPrefix p q = p).
Proof. split; [exact trim_present|exact trim_absent]. Qed.
Print Assumptions C49_prefix_present_partial.

Example C49_prefix_present_ex :
  begins [lbl "a"; lbl "b"; lbl "c"] [lbl "a"; lbl "b"] [lbl "c"] /\
  trimPathPrefix [lbl "a"; lbl "b"; lbl "c"] [lbl "a"; lbl "b"] = [lbl "c"].
Proof. split; [exists [lbl "a"; lbl "b"]; split; reflexivity|reflexivity]. Qed.

(** Exactly: what the two paths have in common at the beginning is stripped. *)
Theorem C49_trim_exact_partial :
  forall p q,
    (length p = 1 -> trimPathPrefix p q = p) /\
    (length p <> 1 -> forall rest, after_common p q rest <-> rest = trimPathPrefix p q).
Proof. exact trim_exactly. Qed.
Print Assumptions C49_trim_exact_partial.

Example C49_trim_exact_ex :
  after_common [lbl "a"; lbl "b"] [lbl "a"; lbl "c"] [lbl "b"] /\
  trimPathPrefix [lbl "a"; lbl "b"] [lbl "a"; lbl "c"] = [lbl "b"].
Proof.
  split; [|reflexivity]. exists [lbl "a"], [lbl "a"], [lbl "c"]. repeat split. cbn. discriminate.
Qed.

(** *** C50 *)

(** [keep_label] keeps the letters, digits and underscores. *)
Theorem C50_sanitize :
  (forall s, sanitizeLabelString s = keep_label s) /\
  (forall s, sanitizeLabelString (sanitizeLabelString s) = sanitizeLabelString s) /\
  (forall s t, sanitizeLabelString (s ++ t) = (sanitizeLabelString s ++ sanitizeLabelString t)%string) /\
  (forall s, all_label (sanitizeLabelString s)) /\
  (forall s, all_label s -> sanitizeLabelString s = s).
Proof. exact sanitize_spec. Qed.
Print Assumptions C50_sanitize.

Example C50_sanitize_ex :
  sanitizeLabelString "my-lineage é_2" = "mylineage_2" /\
  sanitizeLabelString (String (ascii_of_N 195) "a") = "a".
Proof. split; vm_compute; reflexivity. Qed.

(** *** C64 *)

Definition sample_fs : fsnode :=
  FDir (Some [("a.cue", FFile (Some "A"));
              ("cue.mod", FDir (Some [("module.cue", FFile (Some "M")); ("pkg", FDir (Some []))]))]).

(** Every file, and nothing else, is found under the prefix. *)
Theorem C64_overlay_files :
  forall prefix n m,
    is_abs prefix = true -> names_once n -> readable n ->
    exists m', toOverlay prefix n (Some m) = Ok (Some m', None) /\
      (forall p c, at_path n p (FFile (Some c)) -> ov_lookup m' (clean_abs prefix ++ p) = Some c) /\
      (forall k, (forall p c, k = clean_abs prefix ++ p -> ~ at_path n p (FFile (Some c))) ->
         ov_lookup m' k = ov_lookup m k).
Proof. exact overlay_readable. Qed.
Print Assumptions C64_overlay_files.

Example C64_overlay_files_ex :
  names_once sample_fs /\ readable sample_fs /\
  toOverlay "/root//mod/." sample_fs (Some [(["other"], "O")]) =
  Ok (Some [(["root"; "mod"; "cue.mod"; "module.cue"], "M"); (["root"; "mod"; "a.cue"], "A"); (["other"], "O")], None).
Proof.
  split; [|split; [|vm_compute; reflexivity]].
  - constructor.
    + cbn. repeat constructor; cbn; intuition discriminate.
    + intros x d [E|[E|[]]]; injection E as <- <-; [constructor|]. constructor.
      * cbn. repeat constructor; cbn; intuition discriminate.
      * intros x d [E|[E|[]]]; injection E as <- <-; [constructor|]. constructor; [constructor|]. intros x d [].
  - intros p. split; intros H; inversion H as [|? ? ? ? ? I1 H1]; subst; destruct I1 as [E|[E|[]]]; injection E as <- <-;
      inversion H1 as [|? ? ? ? ? I2 H2]; subst; destruct I2 as [E|[E|[]]]; injection E as <- <-;
      inversion H2 as [|? ? ? ? ? I3 H3]; subst; destruct I3.
Qed.

(** When something cannot be read there is an error; what was assigned before
    stays, and all of it is files. *)
Theorem C64_overlay_error :
  forall prefix n m,
    is_abs prefix = true -> ~ readable n ->
    exists m', toOverlay prefix n (Some m) = Ok (Some m', Some io_err) /\
      (forall k, ov_lookup m' k = ov_lookup m k \/
         exists p c, k = clean_abs prefix ++ p /\ at_path n p (FFile (Some c)) /\ ov_lookup m' k = Some c).
Proof. exact overlay_unreadable. Qed.
Print Assumptions C64_overlay_error.

Example C64_overlay_error_ex :
  let n := FDir (Some [("a", FFile (Some "A")); ("b", FFile None); ("c", FFile (Some "C"))]) in
  ~ readable n /\ toOverlay "/" n (Some []) = Ok (Some [(["a"], "A")], Some io_err).
Proof.
  split; [|vm_compute; reflexivity]. intros R. destruct (R ["b"]) as [R1 _]. apply R1.
  econstructor; [|constructor]. right. left. reflexivity.
Qed.

Theorem C64_relative_prefix :
  forall prefix n ov, is_abs prefix = false -> exists e, toOverlay prefix n ov = Ok (ov, Some e).
Proof. exact overlay_relative. Qed.
Print Assumptions C64_relative_prefix.

Example C64_relative_prefix_ex : is_abs "exemplars" = false /\ is_abs "/exemplars" = true.
Proof. split; reflexivity. Qed.

Theorem C64_nil_overlay :
  forall prefix n, is_abs prefix = true -> readable n ->
    ((exists p c, at_path n p (FFile (Some c))) -> toOverlay prefix n None = Panic) /\
    ((forall p c, ~ at_path n p (FFile (Some c))) -> toOverlay prefix n None = Ok (None, None)).
Proof. exact overlay_nil. Qed.
Print Assumptions C64_nil_overlay.

Example C64_nil_overlay_ex : toOverlay "/x" sample_fs None = Panic.
Proof. reflexivity. Qed.
