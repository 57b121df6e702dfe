(** C80, C81, C82, C83: loading a module with thema injected ([load/load.go]). *)
From Verif Require Import Prelude Strings Util UtilProofs Load LoadProofs.
Local Open Scope string_scope.
Local Open Scope list_scope.

(** A module with one lineage file, and a thema file system. *)
Definition mod_fs : fsnode :=
  FDir (Some [("cue.mod", FDir (Some [("gen", FDir None); ("module.cue", FFile (Some "module: ""example.com/ship"""))]));
              ("ship.cue", FFile (Some "S")); ("sub", FDir (Some [("a.cue", FFile (Some "A"))]))]).
Definition plain_fs : fsnode :=
  FDir (Some [("cue.mod", FDir (Some [("module.cue", FFile (Some "module: ""example.com/ship"""));
                                      ("pkg", FDir (Some [("other", FFile (Some "P"))]))]));
              ("ship.cue", FFile (Some "S")); ("sub", FDir (Some [("a.cue", FFile (Some "A"))]))]).
Definition thema_fs : fsnode :=
  FDir (Some [("lineage.cue", FFile (Some "L"))]).
Definition joint_fs : fsnode :=
  FDir (Some [("cue.mod", FDir (Some [("module.cue", FFile (Some "M"))])); ("lineage.cue", FFile (Some "L"))]).

Example mod_fs_once : names_once mod_fs /\ names_once plain_fs /\ names_once thema_fs /\ names_once joint_fs.
Proof.
  unfold mod_fs, plain_fs, thema_fs, joint_fs.
  repeat match goal with
  | |- _ /\ _ => split
  | |- names_once _ => constructor
  | |- NoDup _ => constructor
  | |- ~ In _ _ => cbn; intuition discriminate
  | |- forall x d, In (x, d) _ -> names_once d =>
      let x := fresh in let d := fresh in let K := fresh in
      intros x d K; cbn in K; repeat (destruct K as [K|K]; [injection K as <- <-|]); try contradiction
  end.
Qed.

(** *** C80 *)
Theorem C80_module_name :
  forall f modFS name, names_once modFS -> (module_name f modFS = inl name <-> usable f modFS name).
Proof. exact module_name_spec. Qed.
Print Assumptions C80_module_name.

Theorem C80_not_a_module :
  forall B f cueFS joint (inst : config -> list (B * option err)) modFS dir opts, names_once modFS ->
    ((exists e, instanceWithThema f cueFS joint inst modFS dir opts = NotModule e) <->
     ~ exists name, usable f modFS name).
Proof. exact instance_not_module. Qed.
Print Assumptions C80_not_a_module.

(** Otherwise what is loaded is the first instance for the configuration of that
    module. *)
Theorem C80_loads :
  forall B f cueFS joint (inst : config -> list (B * option err)) modFS dir opts name,
    names_once modFS -> usable f modFS name ->
    instanceWithThema f cueFS joint inst modFS dir opts =
    match load_config cueFS joint modFS dir opts name with
    | Loaded cfg =>
        match inst cfg with
        | (b, None) :: _ => Loaded b
        | (_, Some e) :: _ => Failed e
        | [] => Crash
        end
    | Failed e => Failed e
    | NotModule e => NotModule e
    | Crash => Crash
    end.
Proof. exact instance_module. Qed.
Print Assumptions C80_loads.

(** An unreadable cue.mod/gen is not looked at; thema being there is an error. *)
Example C80_case :
  names_once mod_fs /\ usable cue_module mod_fs "example.com/ship" /\
  module_name cue_module (FDir (Some [("cue.mod", FDir (Some [
    ("module.cue", FFile (Some "module: ""m"""));
    ("pkg", FDir (Some [("github.com", FDir (Some [("grafana", FDir (Some [("thema", FDir (Some []))]))]))]))]))]))
    = inr exists_err.
Proof.
  split; [apply mod_fs_once|]. split; [|reflexivity]. apply module_name_spec; [apply mod_fs_once|reflexivity].
Qed.

(** *** C81 *)
Theorem C81_overlay :
  forall cueFS joint modFS dir opts name,
    names_once modFS -> readable modFS -> names_once cueFS -> readable cueFS -> ~ obstructed modFS ->
    (forall oc, cueFS <> FFile oc) -> name <> "github.com/grafana/thema" ->
    exists cfg, load_config cueFS joint modFS dir opts name = Loaded cfg /\
      cf_root cfg = root_of name /\ cf_module cfg = name /\
      (forall p c, at_path modFS p (FFile (Some c)) -> ov_lookup (cf_overlay cfg) (root_of name ++ p) = Some c) /\
      (forall p c, at_path cueFS p (FFile (Some c)) ->
         ov_lookup (cf_overlay cfg) (root_of name ++ ["cue.mod"; "pkg"; "github.com"; "grafana"; "thema"] ++ p) = Some c) /\
      (forall k, (forall p c, k = root_of name ++ p -> ~ at_path modFS p (FFile (Some c))) ->
                 (forall p c, k = root_of name ++ ["cue.mod"; "pkg"; "github.com"; "grafana"; "thema"] ++ p ->
                              ~ at_path cueFS p (FFile (Some c))) ->
                 ov_lookup (cf_overlay cfg) k = None).
Proof. exact load_config_overlay. Qed.
Print Assumptions C81_overlay.

(** Thema's own module: its embedded files take precedence over those given. *)
Theorem C81_overlay_thema :
  forall cueFS joint modFS dir opts,
    names_once modFS -> readable modFS -> names_once joint -> readable joint ->
    exists cfg, load_config cueFS joint modFS dir opts "github.com/grafana/thema" = Loaded cfg /\
      cf_root cfg = ["github.com"; "grafana"; "thema"] /\ cf_module cfg = "github.com/grafana/thema" /\
      (forall p c, at_path joint p (FFile (Some c)) -> ov_lookup (cf_overlay cfg) (cf_root cfg ++ p) = Some c) /\
      (forall p, (forall c, ~ at_path joint p (FFile (Some c))) ->
         forall c, at_path modFS p (FFile (Some c)) <-> ov_lookup (cf_overlay cfg) (cf_root cfg ++ p) = Some c) /\
      (forall k, (forall p, k <> cf_root cfg ++ p) -> ov_lookup (cf_overlay cfg) k = None).
Proof. exact load_config_thema. Qed.
Print Assumptions C81_overlay_thema.

(** A file anywhere that cannot be read fails the load. *)
Theorem C81_unreadable :
  forall cueFS joint modFS dir opts name,
    ~ readable modFS -> load_config cueFS joint modFS dir opts name = Failed io_err.
Proof. exact load_config_unreadable. Qed.
Print Assumptions C81_unreadable.

Example C81_case :
  load_config thema_fs joint_fs plain_fs "sub" [] "example.com/ship" =
  Loaded (mkCfg
    [(["example.com"; "ship"; "cue.mod"; "pkg"; "github.com"; "grafana"; "thema"; "lineage.cue"], "L");
     (["example.com"; "ship"; "sub"; "a.cue"], "A"); (["example.com"; "ship"; "ship.cue"], "S");
     (["example.com"; "ship"; "cue.mod"; "pkg"; "other"], "P");
     (["example.com"; "ship"; "cue.mod"; "module.cue"], "module: ""example.com/ship""")]
    ["example.com"; "ship"] "example.com/ship" ["example.com"; "ship"; "sub"] "sub" true) /\
  usable cue_module plain_fs "example.com/ship".
Proof. split; [reflexivity|]. apply module_name_spec; [apply mod_fs_once|reflexivity]. Qed.

Example C81_case_readable : readable plain_fs /\ readable thema_fs /\ (forall oc, thema_fs <> FFile oc).
Proof.
  assert (R : forall n, names_once n -> (forall p, node_at n p <> Some (FFile None) /\ node_at n p <> Some (FDir None)) -> readable n).
  { intros n W H p. destruct (H p) as [H1 H2]. split; intros A; apply (node_at_path p n _ W) in A; contradiction. }
  split; [|split; [|discriminate]]; (apply R; [apply mod_fs_once|]); intros p; unfold plain_fs, thema_fs;
    (do 4 (destruct p as [|? p]; cbn; [split; discriminate|];
           repeat (destruct (String.eqb _ _); cbn; [|]);
           try (split; discriminate))).
Qed.

(** *** C82 *)
Theorem C82_dir :
  forall cueFS joint modFS ps opts name cfg, ps <> [] -> Forall plain ps ->
    load_config cueFS joint modFS (String.concat "/" ps) opts name = Loaded cfg ->
    cf_dir cfg = root_of name ++ ps /\ (opts = [] -> cf_package cfg = last ps "").
Proof. exact load_dir. Qed.
Print Assumptions C82_dir.

Theorem C82_root :
  forall cueFS joint modFS dir opts ps cfg, dir = "" \/ dir = "." -> ps <> [] -> Forall plain ps ->
    load_config cueFS joint modFS dir opts (String.concat "/" ps) = Loaded cfg ->
    cf_dir cfg = ps /\ (opts = [] -> cf_package cfg = last ps "").
Proof. exact load_root. Qed.
Print Assumptions C82_root.

Theorem C82_package_option :
  forall cueFS joint modFS dir opts n name cfg,
    load_config cueFS joint modFS dir (opts ++ [OPackage n]) name = Loaded cfg -> cf_package cfg = n.
Proof. exact load_package. Qed.
Print Assumptions C82_package_option.

Example C82_case :
  Forall plain ["sub"; "x"] /\
  (exists cfg, load_config thema_fs joint_fs plain_fs "sub/x" [] "example.com/ship" = Loaded cfg /\
     cf_dir cfg = ["example.com"; "ship"; "sub"; "x"] /\ cf_package cfg = "x") /\
  (exists cfg, load_config thema_fs joint_fs plain_fs "." [] "example.com/ship" = Loaded cfg /\
     cf_dir cfg = ["example.com"; "ship"] /\ cf_package cfg = "ship") /\
  (exists cfg, load_config thema_fs joint_fs plain_fs "" [OPackage "a"; OPackage "b"] "example.com/ship" = Loaded cfg /\
     cf_package cfg = "b").
Proof.
  split.
  - repeat constructor; try discriminate; intros [a [b H]]; destruct a as [|? [|? [|? [|? ?]]]]; discriminate.
  - repeat split; eexists; repeat split; reflexivity.
Qed.

(** "./" also names the root directory, but the package is then ".". *)
Theorem C82_root_package_refuted :
  exists cueFS joint modFS dir cfg,
    load_config cueFS joint modFS dir [] "example.com/ship" = Loaded cfg /\
    cf_dir cfg = cf_root cfg /\ cf_package cfg <> "ship".
Proof.
  exists thema_fs, joint_fs, plain_fs, "./". eexists. split; [reflexivity|]. split; [reflexivity|discriminate].
Qed.
Print Assumptions C82_root_package_refuted.

(** *** C83 *)
Theorem C83_present :
  forall inp name m, names_once inp -> at_path inp ["cue.mod"; "module.cue"] m -> asModFS inp name = inp.
Proof. exact asModFS_present. Qed.
Print Assumptions C83_present.

Theorem C83_added :
  forall inp name p oc, names_once inp -> (forall m, ~ at_path inp ["cue.mod"; "module.cue"] m) ->
    (at_path (asModFS inp name) p (FFile oc) <->
     (p = ["cue.mod"; "module.cue"] /\ oc = Some ("module: """ ++ name ++ """")%string) \/
     (p <> [] /\ p <> ["cue.mod"] /\ at_path inp p (FFile oc))).
Proof. exact asModFS_files. Qed.
Print Assumptions C83_added.

(** The result is then accepted by the loader under that name. *)
Theorem C83_usable :
  forall inp name, names_once inp -> (forall m, ~ at_path inp ["cue.mod"; "module.cue"] m) ->
    ~ obstructed inp -> verbatim name -> name <> "" -> usable cue_module (asModFS inp name) name.
Proof. exact asModFS_usable. Qed.
Print Assumptions C83_usable.

Definition bare_fs : fsnode :=
  FDir (Some [("a.cue", FFile (Some "A")); ("cue.mod", FDir (Some [("pkg", FDir (Some []))]))]).

Example bare_ok : names_once bare_fs /\ (forall m, ~ at_path bare_fs ["cue.mod"; "module.cue"] m) /\ ~ obstructed bare_fs.
Proof.
  assert (W : names_once bare_fs).
  { unfold bare_fs. repeat match goal with
    | |- names_once _ => constructor
    | |- NoDup _ => constructor
    | |- ~ In _ _ => cbn; intuition discriminate
    | |- forall x d, In (x, d) _ -> names_once d =>
        let x := fresh in let d := fresh in let K := fresh in
        intros x d K; cbn in K; repeat (destruct K as [K|K]; [injection K as <- <-|]); try contradiction
    end. }
  split; [exact W|]. split.
  - intros m A. apply (node_at_path _ _ _ W) in A. discriminate.
  - intros [[p [_ A]]|[es A]]; apply (node_at_path _ _ _ W) in A; [|discriminate].
    unfold bare_fs in A. do 4 (destruct p as [|? p]; cbn in A; [discriminate|]; repeat (destruct (String.eqb _ _) in A; cbn in A); try discriminate).
Qed.

Example C83_case :
  asModFS bare_fs "example.com/x" =
  FDir (Some [("a.cue", FFile (Some "A"));
    ("cue.mod", FDir (Some [("pkg", FDir (Some [])); ("module.cue", FFile (Some "module: ""example.com/x"""))]))]) /\
  module_name cue_module (asModFS bare_fs "example.com/x") = inl "example.com/x".
Proof. split; reflexivity. Qed.

(** The comment says nothing changes if there is a cue.mod. *)
Theorem C83_no_op_refuted :
  exists inp es name, at_path inp ["cue.mod"] (FDir (Some es)) /\ asModFS inp name <> inp.
Proof.
  exists bare_fs, [("pkg", FDir (Some []))], "m". split; [|discriminate].
  apply (ap_in _ "cue.mod" (FDir (Some [("pkg", FDir (Some []))]))); [right; left; reflexivity|constructor].
Qed.
Print Assumptions C83_no_op_refuted.

(** A name with a backslash reads back as another name, one with a quote does
    not read back at all. *)
Theorem C83_name_refuted :
  (exists name other, other <> name /\ usable cue_module (asModFS bare_fs name) other) /\
  (exists name, forall other, ~ usable cue_module (asModFS bare_fs name) other).
Proof.
  split.
  - exists "a\\b", "a\b". split; [discriminate|]. apply module_name_spec; [|reflexivity].
    rewrite asModFS_absent by apply bare_ok. apply with_module_once, bare_ok.
  - exists "a""b". intros other U. apply module_name_spec in U; [discriminate|].
    rewrite asModFS_absent by apply bare_ok. apply with_module_once, bare_ok.
Qed.
Print Assumptions C83_name_refuted.

(** *** C64 *)

(** The prefix of an overlay names the directory its elements lead to. *)
Theorem C64_prefix :
  forall p, exists es, p = String.concat "/" es /\
    (forall x, In x es -> ~ exists a b, x = (a ++ String "/" b)%string) /\ leads [] es (clean_abs p).
Proof. exact clean_abs_leads. Qed.
Print Assumptions C64_prefix.

Example C64_prefix_ex : clean_abs "/a/../../b//./c" = ["b"; "c"].
Proof. reflexivity. Qed.
