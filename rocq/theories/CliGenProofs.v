(** Proofs about CliGen.v. *)
From Verif Require Import Prelude Strings Util UtilProofs Load LoadProofs Cli CliProofs CliGen.
Local Open Scope string_scope.
Local Open Scope list_scope.

(** *** fmt.Fprintf without arguments *)

Fixpoint percents (s : string) : nat :=
  match s with
  | EmptyString => 0
  | String c r => (if Ascii.eqb c "%" then 1 else 0) + percents r
  end.

Lemma percents_app a b : percents (a ++ b) = percents a + percents b.
Proof. induction a as [|c r IH]; cbn; [reflexivity|]. rewrite IH. lia. Qed.

Lemma printf_app a b : percents a = 0 -> printf (a ++ b) = (a ++ printf b)%string.
Proof.
  unfold printf. induction a as [|c r IH]; intros P; [reflexivity|]. cbn in *.
  destruct (Ascii.eqb c "%"); [discriminate|]. rewrite IH by exact P. reflexivity.
Qed.

Lemma app_empty s : (s ++ "")%string = s.
Proof. induction s as [|c r IH]; cbn; [reflexivity|]. rewrite IH. reflexivity. Qed.

Lemma printf_plain s : percents s = 0 -> printf s = s.
Proof. intros P. rewrite <- (app_empty s) at 1. rewrite printf_app by exact P. apply app_empty. Qed.

Lemma printf_count s : forall st,
  percents (printf_from st s) <= percents s + match st with InText => 0 | _ => 1 end.
Proof.
  induction s as [|c r IH]; intros st.
  - destruct st; cbn; lia.
  - pose proof (IH InText) as T. pose proof (IH InFlags) as F. pose proof (IH InWidth) as W. pose proof (IH InPrec) as P.
    assert (K : percents ("%!" ++ String c ("(MISSING)" ++ printf_from InText r)) =
                1 + (if Ascii.eqb c "%" then 1 else 0) + percents (printf_from InText r)) by (cbn; destruct (Ascii.eqb c "%"); lia).
    assert (Nf : is_flag "%" = false) by reflexivity. assert (Nd : is_digit "%" = false) by reflexivity.
    cbn [printf_from percents] in *. destruct (Ascii.eqb_spec c "%") as [->|N].
    + rewrite ?Nf, ?Nd. cbn [Ascii.eqb Bool.eqb]. destruct st; cbn; lia.
    + destruct (is_flag c), (is_digit c), (Ascii.eqb c "."); destruct st; try (rewrite K); cbn in *;
        try (destruct (Ascii.eqb_spec c "%"); [contradiction|]); lia.
Qed.

Fixpoint directive_chars (s : string) : Prop :=
  match s with
  | EmptyString => True
  | String c r => (is_flag c || is_digit c || Ascii.eqb c ".") = true /\ directive_chars r
  end.

Lemma directive_shape s : forall st, st <> InText ->
  (directive_chars s /\ printf_from st s = "%!(NOVERB)") \/
  (exists f r, directive_chars f /\ s = (f ++ String "%" r)%string /\ printf_from st s = String "%" (printf r)) \/
  (exists f c r, directive_chars f /\ s = (f ++ String c r)%string /\ c <> "%"%char /\
     printf_from st s = ("%!" ++ String c ("(MISSING)" ++ printf r))%string).
Proof.
  induction s as [|c r IH]; intros st N.
  - left. destruct st; [contradiction| | |]; split; constructor.
  - assert (V : (exists f r', directive_chars f /\ String c r = (f ++ String "%" r')%string /\
          (if Ascii.eqb c "%" then String c (printf_from InText r)
           else ("%!" ++ String c ("(MISSING)" ++ printf_from InText r))%string) = String "%" (printf r')) \/
       (exists f d r', directive_chars f /\ String c r = (f ++ String d r')%string /\ d <> "%"%char /\
          (if Ascii.eqb c "%" then String c (printf_from InText r)
           else ("%!" ++ String c ("(MISSING)" ++ printf_from InText r))%string) =
          ("%!" ++ String d ("(MISSING)" ++ printf r'))%string)).
    { destruct (Ascii.eqb_spec c "%") as [->|E].
      - left. exists "", r. split; [exact I|]. split; reflexivity.
      - right. exists "", c, r. split; [exact I|]. split; [reflexivity|]. split; [exact E|reflexivity]. }
    assert (G : forall st', st' <> InText -> is_flag c || is_digit c || Ascii.eqb c "." = true ->
      (directive_chars (String c r) /\ printf_from st' r = "%!(NOVERB)") \/
      (exists f r', directive_chars f /\ String c r = (f ++ String "%" r')%string /\ printf_from st' r = String "%" (printf r')) \/
      (exists f d r', directive_chars f /\ String c r = (f ++ String d r')%string /\ d <> "%"%char /\
         printf_from st' r = ("%!" ++ String d ("(MISSING)" ++ printf r'))%string)).
    { intros st' N' D. destruct (IH st' N') as [[A B]|[[f [r' [A [-> B]]]]|[f [d [r' [A [-> [B C]]]]]]]].
      - left. split; [split; [exact D|exact A]|exact B].
      - right. left. exists (String c f), r'. split; [split; [exact D|exact A]|]. split; [reflexivity|exact B].
      - right. right. exists (String c f), d, r'. split; [split; [exact D|exact A]|]. split; [reflexivity|]. auto. }
    destruct st; [contradiction| | |]; cbn [printf_from].
    + destruct (is_flag c) eqn:F; [apply G; [discriminate|reflexivity]|].
      destruct (is_digit c) eqn:Dg; [apply G; [discriminate|reflexivity]|].
      destruct (Ascii.eqb c ".") eqn:Dt; [apply G; [discriminate|reflexivity]|]. right. exact V.
    + destruct (is_digit c) eqn:Dg; [apply G; [discriminate|destruct (is_flag c); reflexivity]|].
      destruct (Ascii.eqb c ".") eqn:Dt; [apply G; [discriminate|destruct (is_flag c); reflexivity]|]. right. exact V.
    + destruct (is_digit c) eqn:Dg; [apply G; [discriminate|destruct (is_flag c); reflexivity]|]. right. exact V.
Qed.

Lemma append_inj a b c : (a ++ b)%string = (a ++ c)%string -> b = c.
Proof. induction a as [|x a IH]; cbn; [auto|]. intros H. injection H as H. auto. Qed.

Lemma length_app a b : String.length (a ++ b) = String.length a + String.length b.
Proof. induction a as [|c r IH]; cbn; [reflexivity|]. rewrite IH. reflexivity. Qed.

Lemma no_fix a : a <> "" -> percents a = 0 -> forall n s, String.length s <= n -> s <> (a ++ printf s)%string.
Proof.
  intros NE P. assert (La : 0 < String.length a) by (destruct a; [contradiction|cbn; lia]).
  induction n as [|n IH]; intros s L E.
  - apply (f_equal String.length) in E. rewrite length_app in E. lia.
  - assert (E2 : printf s = (a ++ printf (printf s))%string).
    { rewrite E at 1. apply printf_app. exact P. }
    apply (IH (printf s)); [|exact E2]. apply (f_equal String.length) in E. rewrite length_app in E. lia.
Qed.

Lemma printf_exact s : printf s = s <-> percents s = 0.
Proof.
  split; [|apply printf_plain]. intros E. destruct (percents s) as [|k] eqn:P; [reflexivity|]. exfalso.
  assert (D : exists a r, s = (a ++ String "%" r)%string /\ percents a = 0).
  { clear E. revert k P. induction s as [|c r IH]; intros k P; [discriminate|]. cbn in P.
    destruct (Ascii.eqb_spec c "%") as [->|N]; [exists "", r; auto|].
    destruct (IH k P) as [a [t [-> H]]]. exists (String c a), t. split; [reflexivity|]. cbn.
    destruct (Ascii.eqb_spec c "%"); [contradiction|exact H]. }
  destruct D as [a [r [-> Pa]]]. rewrite printf_app in E by exact Pa. apply append_inj in E.
  change (printf (String "%" r)) with (printf_from InFlags r) in E.
  destruct (directive_shape r InFlags) as [[A B]|[[f [t [A [-> B]]]]|[f [c [t [A [-> [Nc B]]]]]]]]; [discriminate| | |].
  - rewrite B in E. injection E as <-. destruct A as [A _]. discriminate.
  - rewrite B in E. injection E as E. pose proof (printf_count t InText) as K. fold (printf t) in K.
    rewrite E, percents_app in K. cbn in K. lia.
  - rewrite B in E. destruct f as [|x f].
    + cbn in E. injection E as <- E. apply (no_fix "!(MISSING)") with (n := String.length t) (s := t); [discriminate|reflexivity|lia|].
      symmetry. exact E.
    + cbn in E. injection E as <- E. destruct A as [A _]. discriminate.
Qed.

Section Documents.
Context {F : Type}.
Variables to_json to_yaml : F -> string + string.
Variable quote : string -> string.
Let run_document := run_document to_json to_yaml quote.

(** What a format asks for. *)
Definition encoded (format : string) (f : F) (r : string + string) : Prop :=
  (format = "json" /\ r = to_json f) \/ ((format = "yaml" \/ format = "yml") /\ r = to_yaml f).

Lemma document_text format f text : encoded format f (inl text) ->
  run_document format (inl f) = mkEffect (printf text) "" [] 0 /\
  (e_out (run_document format (inl f)) = text <-> ~ exists a b, text = (a ++ String "%" b)%string).
Proof.
  intros H. assert (E : run_document format (inl f) = mkEffect (printf text) "" [] 0).
  { destruct H as [[-> H]|[[-> | ->] H]]; unfold run_document, CliGen.run_document; cbn; rewrite <- H; reflexivity. }
  split; [exact E|]. rewrite E. cbn. rewrite printf_exact. clear. split.
  - intros P [a [b ->]]. rewrite percents_app in P. cbn in P. lia.
  - intros N. induction text as [|c r IH]; [reflexivity|]. cbn. destruct (Ascii.eqb_spec c "%") as [->|E].
    + exfalso. apply N. exists "", r. reflexivity.
    + apply IH. intros [a [b ->]]. apply N. exists (String c a), b. reflexivity.
Qed.

Lemma document_error format f e : encoded format f (inr e) ->
  run_document format (inl f) = mkEffect "" (e ++ newline) [] 1.
Proof.
  intros [[-> H]|[[-> | ->] H]]; unfold run_document, CliGen.run_document; cbn; rewrite <- H; reflexivity.
Qed.

Lemma document_gen_error format e : run_document format (inr e) = mkEffect "" (e ++ newline) [] 1.
Proof. reflexivity. Qed.

Lemma document_bad_format format f : format <> "json" -> format <> "yaml" -> format <> "yml" ->
  e_out (run_document format (inl f)) = "" /\ e_status (run_document format (inl f)) = 0 /\
  e_err (run_document format (inl f)) <> "".
Proof.
  intros A B C. apply String.eqb_neq in A, B, C. unfold run_document, CliGen.run_document. rewrite A, B, C. cbn.
  split; [reflexivity|]. split; [reflexivity|discriminate].
Qed.
End Documents.

(** *** Flags *)

Definition flags_of (c : gcmd) : list flagdef := filter (has_flag c) gen_flags.

Lemma gvar_eqb_spec a b : gvar_eqb a b = true <-> a = b.
Proof. split; [destruct a, b; cbn; congruence|]. intros ->. destruct b; reflexivity. Qed.

Lemma gset_same s v x : gset s v x v = x.
Proof. unfold gset. rewrite (proj2 (gvar_eqb_spec v v) eq_refl). reflexivity. Qed.
Lemma gset_other s v w x : w <> v -> gset s v x w = s w.
Proof.
  intros N. unfold gset. destruct (gvar_eqb w v) eqn:E; [|reflexivity]. apply gvar_eqb_spec in E. contradiction.
Qed.

(** The flags of one command have different names and different variables. *)
Lemma flags_apart c f g : In f (flags_of c) -> In g (flags_of c) ->
  (fd_name f = fd_name g \/ fd_var f = fd_var g) -> f = g.
Proof.
  intros Hf Hg. destruct c; cbn in Hf, Hg;
    repeat (destruct Hf as [<-|Hf]); try destruct Hf;
    repeat (destruct Hg as [<-|Hg]); try destruct Hg; cbn; intros [E|E]; first [reflexivity|discriminate].
Qed.

Lemma find_flag c n f : find (fun f => has_flag c f && String.eqb (fd_name f) n) gen_flags = Some f ->
  In f (flags_of c) /\ fd_name f = n.
Proof.
  intros H. apply find_some in H as [I H]. apply andb_true_iff in H as [H1 H2]. apply String.eqb_eq in H2.
  split; [apply filter_In; auto|exact H2].
Qed.

Lemma parse_step c n x r s : parse_flags c ((n, x) :: r) s =
  match find (fun f => has_flag c f && String.eqb (fd_name f) n) gen_flags with
  | Some f => parse_flags c r (gset s (fd_var f) x)
  | None => None
  end.
Proof. reflexivity. Qed.

Lemma parse_keeps c given : forall s st f, parse_flags c given s = Some st -> In f (flags_of c) ->
  ~ In (fd_name f) (map fst given) -> st (fd_var f) = s (fd_var f).
Proof.
  induction given as [|[n x] r IH]; intros s st f H I N; [injection H as <-; reflexivity|]. rewrite parse_step in H.
  destruct (find _ gen_flags) as [g|] eqn:G; [|discriminate]. apply find_flag in G as [Ig En].
  cbn in N. rewrite (IH _ st f H I) by tauto. apply gset_other. intros E.
  assert (f = g) by (apply (flags_apart c); auto). subst. tauto.
Qed.

Lemma initial_default c f : In f (flags_of c) -> (c, fd_name f) <> (GOpenapi, "format") ->
  initial_store (fd_var f) = fd_default f.
Proof.
  intros I N. destruct c; cbn in I; repeat (destruct I as [<-|I]; [first [reflexivity|exfalso; apply N; reflexivity]|]); destruct I.
Qed.

Lemma flag_default c given st f : parsed c given = Some st -> In f (flags_of c) ->
  ~ In (fd_name f) (map fst given) -> (c, fd_name f) <> (GOpenapi, "format") -> st (fd_var f) = fd_default f.
Proof. intros H I N E. rewrite (parse_keeps _ _ _ _ _ H I N). apply (initial_default c); assumption. Qed.

Lemma flag_given c pre n x post st f : parsed c (pre ++ (n, x) :: post) = Some st -> In f (flags_of c) -> fd_name f = n ->
  ~ In n (map fst post) -> st (fd_var f) = x.
Proof.
  unfold parsed. generalize initial_store. induction pre as [|[m y] pre IH]; intros s H I E N; cbn [app] in H; rewrite parse_step in H.
  - destruct (find _ gen_flags) as [g|] eqn:G; [|discriminate]. apply find_flag in G as [Ig En].
    assert (f = g) by (apply (flags_apart c); [assumption|assumption|left; congruence]). subst g.
    rewrite (parse_keeps c post _ st f H I); [apply gset_same|]. rewrite E. exact N.
  - destruct (find _ gen_flags) as [g|]; [|discriminate]. eapply IH; eassumption.
Qed.

Lemma flag_known c given : (exists st, parsed c given = Some st) <->
  forall n x, In (n, x) given -> exists f, In f (flags_of c) /\ fd_name f = n.
Proof.
  unfold parsed. generalize initial_store. induction given as [|[m y] r IH]; intros s.
  - split; [intros _ n x []|]. cbn. eauto.
  - rewrite parse_step. destruct (find _ gen_flags) as [g|] eqn:G.
    + rewrite IH. apply find_flag in G as [Ig En]. split.
      * intros H n x [K|K]; [injection K as <- <-; eauto|eauto].
      * intros H n x K. apply (H n x). right. exact K.
    + split; [intros [st K]; discriminate|]. intros H. destruct (H m y (or_introl eq_refl)) as [f [I E]].
      exfalso. apply filter_In in I as [I1 I2]. apply (find_none _ _ G) in I1. rewrite I2, E, String.eqb_refl in I1. discriminate.
Qed.

Lemma openapi_default : exists f st, In f (flags_of GOpenapi) /\ fd_name f = "format" /\ fd_default f = "yaml" /\
  parsed GOpenapi [] = Some st /\ st (fd_var f) = "json".
Proof.
  eexists (mkFlag (Some GOpenapi) "format" Vformat "yaml"), _. cbn. repeat split; try reflexivity.
  right. right. right. left. reflexivity.
Qed.

(** *** Files *)

Definition no_slash (s : string) : Prop := ~ exists a b, s = (a ++ String "/" b)%string.

Lemma lower_slash c : lower_char c = "/"%char -> c = "/"%char.
Proof.
  unfold lower_char. destruct ((65 <=? N_of_ascii c)%N && (N_of_ascii c <=? 90)%N) eqn:E; [|auto].
  intros H. apply (f_equal N_of_ascii) in H. rewrite N_ascii_embedding in H.
  - cbn in H. apply andb_true_iff in E as [E1 E2]. apply N.leb_le in E1, E2. lia.
  - apply andb_true_iff in E as [E1 E2]. apply N.leb_le in E1, E2. lia.
Qed.

Lemma lower_no_slash name suffix : no_slash name -> no_slash suffix -> no_slash (lower name ++ suffix).
Proof.
  intros N S. induction name as [|c r IH]; [exact S|]. intros [a [b E]]. cbn in E. destruct a as [|x a].
  - cbn in E. injection E as E _. apply lower_slash in E. subst. apply N. exists "", r. reflexivity.
  - cbn in E. injection E as _ E. apply IH; [|exists a, b; exact E]. intros [a' [b' ->]]. apply N. exists (String c a'), b'. reflexivity.
Qed.

Lemma clean_all p : forall acc, (forall x, In x p -> x <> ".." /\ x <> ".") -> clean_elems acc p = rev acc ++ p.
Proof.
  induction p as [|x p IH]; intros acc H; cbn; [rewrite app_nil_r; reflexivity|].
  destruct (H x (or_introl eq_refl)) as [A B]. apply String.eqb_neq in A, B. rewrite A, B.
  rewrite IH by (intros y I; apply H; right; exact I). cbn. rewrite <- app_assoc. reflexivity.
Qed.

(** A clean absolute path. *)
Definition clean (p : path) : Prop := forall x, In x p -> x <> "" /\ x <> ".." /\ x <> ".".

Lemma clean_dir isdir p : clean p -> clean (lineage_dir isdir p).
Proof.
  intros C. destruct isdir; [exact C|]. intros x I. apply C. unfold lineage_dir, dirname in I.
  destruct p as [|y p] using rev_ind; [destruct I|]. rewrite removelast_last in I. apply in_app_iff. auto.
Qed.

Lemma target_plain isdir abs name suffix : clean abs -> no_slash name -> no_slash suffix -> 3 <= String.length suffix ->
  target isdir abs name suffix = lineage_dir isdir abs ++ [(lower name ++ suffix)%string].
Proof.
  intros C N S L. unfold target. rewrite plain_split by (apply lower_no_slash; assumption).
  assert (Len : 3 <= String.length (lower name ++ suffix)) by (rewrite length_app; lia).
  destruct (String.eqb_spec (lower name ++ suffix) "") as [E|E]; [rewrite E in Len; cbn in Len; lia|]. cbn.
  apply String.eqb_neq in E. rewrite E. cbn. unfold joinpath. rewrite clean_all; [reflexivity|].
  intros x I. apply in_app_iff in I as [I|[<-|[]]].
  - apply (clean_dir isdir) in C. destruct (C x I) as [_ K]. exact K.
  - split; intros K; rewrite K in Len; cbn in Len; lia.
Qed.

Lemma suffix_ok s : existsb (Ascii.eqb "/") (list_ascii_of_string s) = false -> no_slash s.
Proof.
  intros E [a [b ->]]. induction a as [|c a IH]; cbn in E; [discriminate|]. apply orb_false_iff in E as [_ E]. auto.
Qed.

Lemma gotypes_file st wr isdir abs name code : clean abs -> no_slash name -> flag_on (st Vstdout) = false ->
  let p := lineage_dir isdir abs ++ [(lower name ++ "_types_gen.go")%string] in
  wr p = None ->
  exists text, runGoTypes st wr isdir abs name (inl code) = mkEffect "" "" [(p, text)] 0 /\
    (percents (epath isdir abs) = 0 -> text = (goheaderp (epath isdir abs) ++ code)%string).
Proof.
  intros C N F p W. unfold runGoTypes. rewrite F, target_plain; [|exact C|exact N|apply suffix_ok; reflexivity|cbn; lia].
  fold p. rewrite W. eexists. split; [reflexivity|]. intros P. rewrite printf_plain; [reflexivity|].
  unfold goheaderp. rewrite !percents_app, P. reflexivity.
Qed.

Lemma bindings_file fs module_of gomod_of st wr isdir abs name gen cfg code :
  clean abs -> no_slash name -> flag_on (st Vstdout) = false ->
  binding_config fs module_of gomod_of st isdir abs = inl cfg -> gen cfg = inl code ->
  let p := lineage_dir isdir abs ++ [(lower name ++ "_bindings_gen.go")%string] in
  wr p = None ->
  exists text said, runGoBindings fs module_of gomod_of st wr isdir abs name gen = mkEffect said "" [(p, text)] 0 /\
    (percents (epath isdir abs) = 0 -> text = (goheaderp (epath isdir abs) ++ code)%string) /\
    said = if flag_on (st Vquiet) then "" else ("generated go bindings for " ++ name ++ " at " ++ pstring p ++ newline)%string.
Proof.
  intros C N F B G p W. unfold runGoBindings. rewrite B, G, F, target_plain; [|exact C|exact N|apply suffix_ok; reflexivity|cbn; lia].
  fold p. rewrite W. eexists _, _. split; [reflexivity|]. split; [|reflexivity]. intros P. rewrite printf_plain; [reflexivity|].
  unfold goheaderp. rewrite !percents_app, P. reflexivity.
Qed.

Lemma bindings_stdout fs module_of gomod_of st wr isdir abs name gen : flag_on (st Vstdout) = true ->
  runGoBindings fs module_of gomod_of st wr isdir abs name gen =
  match gen (mkBindCfg "" "" "") with
  | inl code => mkEffect (goheader ++ code) "" [] 0
  | inr e => mkEffect "" (e ++ newline) [] 1
  end.
Proof.
  intros F. unfold runGoBindings, binding_config. rewrite F. destruct (gen _); reflexivity.
Qed.

Lemma gotypes_shape st wr isdir abs name code : flag_on (st Vstdout) = false ->
  (exists p t, runGoTypes st wr isdir abs name code = mkEffect "" "" [(p, t)] 0 /\ exists c, code = inl c) \/
  (exists e, runGoTypes st wr isdir abs name code = mkEffect "" (e ++ newline) [] 1 /\ (code = inr e \/ exists p, wr p = Some e)).
Proof.
  intros F. unfold runGoTypes. rewrite F. destruct code as [c|e]; [|right; exists e; auto].
  destruct (wr _) as [e|] eqn:W; [right; exists e; eauto|left; eauto 6].
Qed.

Lemma bindings_shape fs module_of gomod_of st wr isdir abs name gen : flag_on (st Vstdout) = false ->
  (exists p t out cfg c, runGoBindings fs module_of gomod_of st wr isdir abs name gen = mkEffect out "" [(p, t)] 0 /\
     binding_config fs module_of gomod_of st isdir abs = inl cfg /\ gen cfg = inl c) \/
  (exists e, runGoBindings fs module_of gomod_of st wr isdir abs name gen = mkEffect "" (e ++ newline) [] 1 /\
     (binding_config fs module_of gomod_of st isdir abs = inr e \/
      (exists cfg, binding_config fs module_of gomod_of st isdir abs = inl cfg /\ gen cfg = inr e) \/ exists p, wr p = Some e)).
Proof.
  intros F. unfold runGoBindings. rewrite F. destruct (binding_config _ _ _ _ _ _) as [cfg|e]; [|right; exists e; auto].
  destruct (gen cfg) as [c|e] eqn:G; [|right; exists e; eauto 6].
  destruct (wr _) as [e|] eqn:W; [right; exists e; eauto 6|left]. do 5 eexists. split; [reflexivity|]. split; [reflexivity|exact G].
Qed.

(** *** The module root *)

Definition cuefile (d : path) : path := d ++ ["cue.mod"; "module.cue"].
Definition no_cue (fs : fsys) (d : path) : Prop := forall b, fs_read fs (cuefile d) <> ReadData b.

(** The nearest go.mod among the directories at or above [d] that are at least
    [k] deep. *)
Definition go_found (fs : fsys) (gomod_of : string -> string) (d : path) (k : nat) (r : rootfind) : Prop :=
  (rf_gomodpath r = None /\ rf_gomod r = "" /\
   forall g, at_or_above g d -> k <= length g -> fs_read fs (g ++ ["go.mod"]) = ReadNotExist) \/
  (exists g t, rf_gomodpath r = Some g /\ at_or_above g d /\ k <= length g /\
     fs_read fs (g ++ ["go.mod"]) = ReadData t /\ rf_gomod r = gomod_of t /\
     forall g', at_or_above g' d -> length g < length g' -> fs_read fs (g' ++ ["go.mod"]) = ReadNotExist).

Definition root_spec (fs : fsys) (module_of : string -> string + string) (gomod_of : string -> string)
    (d : path) (res : rootfind + string) : Prop :=
  match res with
  | inl r =>
      (exists m b, rf_cuemodpath r = Some m /\ at_or_above m d /\ fs_read fs (cuefile m) = ReadData b /\
         module_of b = inl (rf_cuemod r) /\
         (forall m', at_or_above m' d -> length m < length m' -> no_cue fs m') /\
         go_found fs gomod_of d (S (length m)) r) \/
      (rf_cuemodpath r = None /\ rf_cuemod r = "" /\ (forall m, at_or_above m d -> no_cue fs m) /\
       go_found fs gomod_of d 0 r)
  | inr e =>
      (exists m b t r, at_or_above m d /\ fs_read fs (cuefile m) = ReadData b /\ module_of b = inr t /\
         (forall m', at_or_above m' d -> length m < length m' -> no_cue fs m') /\
         go_found fs gomod_of d (S (length m)) r /\
         e = ("invalid cue.mod at " ++ pstring (cuefile m) ++ ": " ++ t)%string) \/
      (exists m, at_or_above m d /\ fs_read fs (m ++ ["go.mod"]) = ReadErr e /\
         (forall m', at_or_above m' d -> length m <= length m' -> no_cue fs m') /\
         (forall m', at_or_above m' d -> length m < length m' -> fs_read fs (m' ++ ["go.mod"]) = ReadNotExist))
  end.

Lemma above_same a b d : at_or_above a d -> at_or_above b d -> length a = length b -> a = b.
Proof.
  intros [r E] [r' E'] L. rewrite E in E'. revert b L E'. clear E. induction a as [|x a IH]; intros [|y b] L E; cbn in *; try lia; [reflexivity|].
  injection E as <- E. f_equal. apply IH; [lia|exact E].
Qed.

Lemma root_up_spec fs module_of gomod_of d rp : forall r,
  at_or_above (rev rp) d -> (forall m, at_or_above m d -> length rp < length m -> no_cue fs m) ->
  go_found fs gomod_of d (S (length rp)) r -> rf_cuemod r = "" -> rf_cuemodpath r = None ->
  root_spec fs module_of gomod_of d (root_up fs module_of gomod_of rp r).
Proof.
  induction rp as [|x up IH]; intros r A C G E1 E2.
  - cbn [root_up]. set (p := rev []) in *. change (p ++ ["cue.mod"; "module.cue"]) with (cuefile p).
    assert (Lp : length p = 0) by reflexivity.
    destruct (fs_read fs (cuefile p)) as [b| |t] eqn:R.
    + destruct (module_of b) as [n|t] eqn:M; cbn.
      * left. exists p, b. repeat split; auto.
      * left. exists p, b, t, r. repeat split; auto.
    + assert (NC : forall m, at_or_above m d -> 0 <= length m -> no_cue fs m).
      { intros m Am _. destruct m as [|y m]; [|apply C; [exact Am|cbn; lia]].
        intros b K. change (cuefile []) with (cuefile p) in K. congruence. }
      destruct (rf_gomodpath r) as [g|] eqn:Gp.
      * cbn. right. split; [exact E2|]. split; [exact E1|]. split; [intros m Am; apply NC; [exact Am|lia]|].
        destruct G as [[K _]|[g' [t [K1 [K2 [K3 K4]]]]]]; [congruence|]. right. exists g', t. repeat split; try tauto. lia.
      * destruct G as [[_ [K2 K3]]|[g' [t [K _]]]]; [|congruence].
        destruct (fs_read fs (p ++ ["go.mod"])) as [t| |t] eqn:Rg; cbn.
        -- right. split; [exact E2|]. split; [exact E1|]. split; [intros m Am; apply NC; [exact Am|lia]|].
           right. exists p, t. cbn. split; [reflexivity|]. split; [exact A|]. split; [lia|]. split; [exact Rg|]. split; [reflexivity|].
           intros g' Ag Lg. apply K3; [exact Ag|cbn in *; lia].
        -- right. split; [exact E2|]. split; [exact E1|]. split; [intros m Am; apply NC; [exact Am|lia]|].
           left. split; [exact Gp|]. split; [exact K2|]. intros g Ag _. destruct g as [|y g]; [exact Rg|]. apply K3; [exact Ag|cbn; lia].
        -- right. exists p. split; [exact A|]. split; [exact Rg|]. split; [intros m Am _; apply NC; [exact Am|lia]|].
           intros m Am Lm. apply K3; [exact Am|cbn in *; lia].
    + assert (NC : forall m, at_or_above m d -> 0 <= length m -> no_cue fs m).
      { intros m Am _. destruct m as [|y m]; [|apply C; [exact Am|cbn; lia]].
        intros b K. change (cuefile []) with (cuefile p) in K. congruence. }
      destruct (rf_gomodpath r) as [g|] eqn:Gp.
      * cbn. right. split; [exact E2|]. split; [exact E1|]. split; [intros m Am; apply NC; [exact Am|lia]|].
        destruct G as [[K _]|[g' [t' [K1 [K2 [K3 K4]]]]]]; [congruence|]. right. exists g', t'. repeat split; try tauto. lia.
      * destruct G as [[_ [K2 K3]]|[g' [t' [K _]]]]; [|congruence].
        destruct (fs_read fs (p ++ ["go.mod"])) as [t'| |t'] eqn:Rg; cbn.
        -- right. split; [exact E2|]. split; [exact E1|]. split; [intros m Am; apply NC; [exact Am|lia]|].
           right. exists p, t'. cbn. split; [reflexivity|]. split; [exact A|]. split; [lia|]. split; [exact Rg|]. split; [reflexivity|].
           intros g' Ag Lg. apply K3; [exact Ag|cbn in *; lia].
        -- right. split; [exact E2|]. split; [exact E1|]. split; [intros m Am; apply NC; [exact Am|lia]|].
           left. split; [exact Gp|]. split; [exact K2|]. intros g Ag _. destruct g as [|y g]; [exact Rg|]. apply K3; [exact Ag|cbn; lia].
        -- right. exists p. split; [exact A|]. split; [exact Rg|]. split; [intros m Am _; apply NC; [exact Am|lia]|].
           intros m Am Lm. apply K3; [exact Am|cbn in *; lia].
  - cbn [root_up]. set (p := rev (x :: up)) in *. change (p ++ ["cue.mod"; "module.cue"]) with (cuefile p).
    assert (Lp : length p = S (length up)) by (unfold p; rewrite rev_length; reflexivity).
    assert (Up : at_or_above (rev up) d).
    { destruct A as [s ->]. unfold p. cbn [rev]. exists (x :: s). rewrite <- app_assoc. reflexivity. }
    assert (Same : forall m, at_or_above m d -> length m = S (length up) -> m = p).
    { intros m Am Lm. apply (above_same m p d); [exact Am|exact A|]. lia. }
    clearbody p.
    destruct (fs_read fs (cuefile p)) as [b| |t] eqn:R.
    + destruct (module_of b) as [n|t] eqn:M; cbn [root_spec rf_cuemodpath rf_cuemod].
      * left. exists p, b. cbn. rewrite Lp. repeat split; auto.
      * left. exists p, b, t, r. rewrite Lp. repeat split; auto.
    + assert (NC : forall m, at_or_above m d -> length up < length m -> no_cue fs m).
      { intros m Am Lm. destruct (Nat.eq_dec (length m) (S (length up))) as [K|K].
        - rewrite (Same m Am K). intros b Kb. congruence.
        - apply C; [exact Am|cbn; lia]. }
      destruct (rf_gomodpath r) as [g|] eqn:Gp.
      * apply IH; auto. destruct G as [[K _]|[g' [t [K1 [K2 [K3 K4]]]]]]; [congruence|].
        right. exists g', t. cbn in K3. repeat split; try tauto. lia.
      * destruct G as [[_ [K2 K3]]|[g' [t [K _]]]]; [|congruence].
        destruct (fs_read fs (p ++ ["go.mod"])) as [t| |t] eqn:Rg.
        -- apply IH; auto. right. exists p, t. split; [reflexivity|]. rewrite Lp. split; [exact A|]. split; [lia|]. split; [exact Rg|]. split; [reflexivity|].
           intros g' Ag Lg. apply K3; [exact Ag|cbn; lia].
        -- apply IH; auto. left. split; [exact Gp|]. split; [exact K2|]. intros g Ag Lg.
           destruct (Nat.eq_dec (length g) (S (length up))) as [K|K]; [rewrite (Same g Ag K); exact Rg|]. apply K3; [exact Ag|cbn; lia].
        -- right. exists p. split; [exact A|]. split; [exact Rg|]. rewrite Lp. split; [intros m Am Lm; apply NC; [exact Am|lia]|].
           intros m Am Lm. apply K3; [exact Am|cbn; lia].
    + assert (NC : forall m, at_or_above m d -> length up < length m -> no_cue fs m).
      { intros m Am Lm. destruct (Nat.eq_dec (length m) (S (length up))) as [K|K].
        - rewrite (Same m Am K). intros b Kb. congruence.
        - apply C; [exact Am|cbn; lia]. }
      destruct (rf_gomodpath r) as [g|] eqn:Gp.
      * apply IH; auto. destruct G as [[K _]|[g' [t' [K1 [K2 [K3 K4]]]]]]; [congruence|].
        right. exists g', t'. cbn in K3. repeat split; try tauto. lia.
      * destruct G as [[_ [K2 K3]]|[g' [t' [K _]]]]; [|congruence].
        destruct (fs_read fs (p ++ ["go.mod"])) as [t'| |t'] eqn:Rg.
        -- apply IH; auto. right. exists p, t'. split; [reflexivity|]. rewrite Lp. split; [exact A|]. split; [lia|]. split; [exact Rg|]. split; [reflexivity|].
           intros g' Ag Lg. apply K3; [exact Ag|cbn; lia].
        -- apply IH; auto. left. split; [exact Gp|]. split; [exact K2|]. intros g Ag Lg.
           destruct (Nat.eq_dec (length g) (S (length up))) as [K|K]; [rewrite (Same g Ag K); exact Rg|]. apply K3; [exact Ag|cbn; lia].
        -- right. exists p. split; [exact A|]. split; [exact Rg|]. rewrite Lp. split; [intros m Am Lm; apply NC; [exact Am|lia]|].
           intros m Am Lm. apply K3; [exact Am|cbn; lia].
Qed.

Lemma findModRoot_spec fs module_of gomod_of abs isdir :
  fs_stat fs abs = (if isdir : bool then StatDir else StatFile) ->
  root_spec fs module_of gomod_of (lineage_dir isdir abs) (findModRoot fs module_of gomod_of abs).
Proof.
  intros St. unfold findModRoot. rewrite St. assert (K : forall d, root_spec fs module_of gomod_of d (root_up fs module_of gomod_of (rev d) no_root)).
  { intros d. apply root_up_spec; auto.
    - exists []. rewrite rev_involutive, app_nil_r. reflexivity.
    - intros m Am Lm. apply above_length in Am. rewrite rev_length in Lm. lia.
    - left. repeat split; auto. intros g Ag Lg. apply above_length in Ag. rewrite rev_length in Lg. lia. }
  destruct isdir; apply K.
Qed.

Lemma roots_agree fs module_of gomod_of abs m r :
  findCueMod fs module_of abs = Found m -> findModRoot fs module_of gomod_of abs = inl r ->
  rf_cuemodpath r = Some (cuemodparentdir m) /\ rf_cuemod r = modname m.
Proof.
  intros H1 H2.
  assert (K : exists d, find_spec fs module_of d (Found m) /\ root_spec fs module_of gomod_of d (inl r)).
  { rewrite <- H1, <- H2. pose proof (find_cue_mod fs module_of abs) as A.
    pose proof (findModRoot_spec fs module_of gomod_of abs) as B. destruct (fs_stat fs abs) as [e| |].
    - rewrite A in H1. discriminate.
    - exists abs. split; [exact A|]. exact (B true eq_refl).
    - exists (removelast abs). split; [exact A|]. exact (B false eq_refl). }
  destruct K as [d [[[N1 [N2 [N3 N4]]] [b [R M]]] S]]. set (c := cuemodparentdir m) in *. cbn in S.
  destruct S as [[c' [b' [E1 [A [R' [M' [C G]]]]]]]|[E1 [E2 [C G]]]].
  - destruct (Nat.lt_trichotomy (length c') (length c)) as [L|[L|L]].
    + exfalso. apply (C c N2 L b). exact R.
    + assert (c' = c) by (apply (above_same c' c d); assumption). subst c'. split; [exact E1|].
      unfold cuefile in R'. rewrite R in R'. injection R' as <-. rewrite M in M'. injection M' as <-. reflexivity.
    + exfalso. pose proof (N4 c' A L) as K. unfold cuefile in R'. congruence.
  - exfalso. apply (C c N2 b). exact R.
Qed.

(** *** How the generated code loads the lineage *)

Lemma rel_below m r : relpath m (m ++ r) = r.
Proof. induction m as [|x m IH]; cbn; [destruct r; reflexivity|]. rewrite String.eqb_refl. exact IH. Qed.

Lemma binding_cue fs module_of gomod_of st isdir abs r m rel :
  findModRoot fs module_of gomod_of abs = inl r -> rf_cuemodpath r = Some m -> rf_cuemod r <> "" ->
  lineage_dir isdir abs = m ++ rel ->
  flag_on (st Vstdout) = false -> flag_on (st Vnofsfunc) = false ->
  binding_config fs module_of gomod_of st isdir abs =
  inl (mkBindCfg (if flag_on (st Vnoembed) then "" else epath isdir abs) "."
         (match rel with [] => rf_cuemod r | _ => (rf_cuemod r ++ "/" ++ String.concat "/" rel)%string end)).
Proof.
  intros R M N L F1 F2. unfold binding_config. rewrite F1, R. apply String.eqb_neq in N.
  unfold rf_modpath, rf_modname, rf_exists. rewrite N, M. cbn. rewrite F2, L, rel_below. destruct rel; reflexivity.
Qed.

Lemma concat_app (ps rel : list string) : ps <> [] -> rel <> [] ->
  (String.concat "/" ps ++ "/" ++ String.concat "/" rel)%string = String.concat "/" (ps ++ rel).
Proof.
  intros N1 N2. induction ps as [|x ps IH]; [contradiction|]. destruct ps as [|y ps].
  - cbn [app]. destruct rel as [|z rel]; [contradiction|]. reflexivity.
  - change (String.concat "/" (x :: y :: ps)) with (x ++ "/" ++ String.concat "/" (y :: ps))%string.
    change (String.concat "/" ((x :: y :: ps) ++ rel)) with (x ++ "/" ++ String.concat "/" ((y :: ps) ++ rel))%string.
    rewrite <- IH by discriminate. rewrite <- !sapp_assoc. reflexivity.
Qed.

(** The generated code calls [load.InstanceWithThema(load.AsModFS(embedded, CueModName), LoadDir)]. *)
Lemma bindings_load fs module_of gomod_of st isdir abs r m rel ps efs cfg cueFS joint lcfg :
  findModRoot fs module_of gomod_of abs = inl r -> rf_cuemodpath r = Some m ->
  ps <> [] -> Forall LoadProofs.plain ps -> Forall LoadProofs.plain rel -> rf_cuemod r = String.concat "/" ps ->
  lineage_dir isdir abs = m ++ rel ->
  flag_on (st Vstdout) = false -> flag_on (st Vnofsfunc) = false ->
  names_once efs -> (forall n, ~ at_path efs ["cue.mod"] n) -> verbatim (String.concat "/" (ps ++ rel)) ->
  binding_config fs module_of gomod_of st isdir abs = inl cfg ->
  module_name cue_module (asModFS efs (bc_cuemod cfg)) = inl (bc_cuemod cfg) /\
  (Load.load_config cueFS joint (asModFS efs (bc_cuemod cfg)) (bc_loaddir cfg) [] (bc_cuemod cfg) = Loaded lcfg ->
   cf_dir lcfg = ps ++ rel /\ cf_package lcfg = last (ps ++ rel) "").
Proof.
  intros R M NE F1 F2 E L S1 S2 W NC V B.
  assert (Nn : rf_cuemod r <> "").
  { rewrite E. pose proof (concat_special ps NE F1) as K. apply orb_false_iff in K as [K _]. apply String.eqb_neq in K. exact K. }
  rewrite (binding_cue fs module_of gomod_of st isdir abs r m rel R M Nn L S1 S2) in B. injection B as <-.
  cbn [bc_cuemod bc_loaddir].
  assert (Nm : (match rel with [] => rf_cuemod r | _ => (rf_cuemod r ++ String "/" (String.concat "/" rel))%string end) = String.concat "/" (ps ++ rel)).
  { rewrite E. destruct rel as [|z rel]; [rewrite app_nil_r; reflexivity|]. apply (concat_app ps (z :: rel)); [exact NE|discriminate]. }
  rewrite Nm. set (name := String.concat "/" (ps ++ rel)) in *.
  assert (NE2 : ps ++ rel <> []) by (intros K; apply app_eq_nil in K as [K _]; contradiction).
  assert (F3 : Forall LoadProofs.plain (ps ++ rel)) by (apply Forall_app; auto).
  assert (NMd : forall n, ~ at_path efs ["cue.mod"; "module.cue"] n).
  { intros n A. apply (at_cons _ _ _ _ W) in A as [d [C _]]. apply (child_at _ _ _ W) in C. apply (NC d C). }
  split.
  - apply module_name_spec.
    + rewrite (asModFS_absent _ _ W NMd). apply with_module_once. exact W.
    + apply asModFS_usable; auto.
      * intros [[p [[q [-> _]] A]]|[es A]]; apply (at_cons _ _ _ _ W) in A as [d [C _]]; apply (child_at _ _ _ W) in C; apply (NC d C).
      * pose proof (concat_special _ NE2 F3) as K. apply orb_false_iff in K as [K _]. apply String.eqb_neq in K. exact K.
  - intros H. destruct (load_root cueFS joint (asModFS efs name) "." [] (ps ++ rel) lcfg (or_intror eq_refl) NE2 F3 H) as [D P].
    split; [exact D|]. apply P. reflexivity.
Qed.

Lemma verbatim_check s :
  forallb (fun c => negb (Ascii.eqb c """") && negb (Ascii.eqb c "\") && negb (Ascii.eqb c (ascii_of_N 10)))
    (list_ascii_of_string s) = true -> verbatim s.
Proof.
  intros H a c b ->. rewrite forallb_forall in H.
  assert (I : In c (list_ascii_of_string (a ++ String c b))) by (induction a; [left; reflexivity|right; apply IHa; intros x K; apply H; right; exact K]).
  apply H in I. rewrite !andb_true_iff, !negb_true_iff, !Ascii.eqb_neq in I. tauto.
Qed.

(** A lineage that is only in a Go module. *)
Lemma binding_go fs module_of gomod_of st isdir abs r m :
  findModRoot fs module_of gomod_of abs = inl r -> rf_cuemodpath r = None -> rf_cuemod r = "" ->
  rf_gomodpath r = Some m -> rf_gomod r <> "" ->
  flag_on (st Vstdout) = false -> flag_on (st Vnofsfunc) = false ->
  binding_config fs module_of gomod_of st isdir abs =
  inl (mkBindCfg (if flag_on (st Vnoembed) then "" else epath isdir abs) "." (rf_gomod r)).
Proof.
  intros R M N G NG F1 F2. unfold binding_config. rewrite F1, R. apply String.eqb_neq in NG.
  unfold rf_modpath, rf_modname, rf_exists. rewrite N, M, NG, G. cbn. rewrite F2. destruct (relpath m _); reflexivity.
Qed.

Lemma binding_nofs fs module_of gomod_of st isdir abs r :
  findModRoot fs module_of gomod_of abs = inl r ->
  flag_on (st Vstdout) = false -> flag_on (st Vnofsfunc) = true ->
  binding_config fs module_of gomod_of st isdir abs =
  inl (mkBindCfg (if flag_on (st Vnoembed) then "" else epath isdir abs) "" "").
Proof.
  intros R F1 F2. unfold binding_config. rewrite F1, R, F2. destruct (rf_modpath r); reflexivity.
Qed.

Lemma binding_none fs module_of gomod_of st isdir abs r :
  findModRoot fs module_of gomod_of abs = inl r -> rf_cuemod r = "" -> rf_gomod r = "" ->
  flag_on (st Vstdout) = false ->
  binding_config fs module_of gomod_of st isdir abs =
  inl (mkBindCfg (if flag_on (st Vnoembed) then "" else epath isdir abs) "" "").
Proof. intros R M N F1. unfold binding_config. rewrite F1, R. unfold rf_modpath, rf_exists. rewrite M, N. reflexivity. Qed.
