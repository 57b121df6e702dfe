(** C60, C61, C62, C72, C73, C74: generation of Go code. *)
From Verif Require Import Prelude Strings Gocode GocodeProofs GocodeFacts GocodeSweepProofs GocodeReachProofs GocodeUnderProofs.
Local Open Scope string_scope.
Local Open Scope list_scope.

(** *** C60 *)

(** No name is declared twice, whatever the lineage is called. *)
Theorem C60_declared_once :
  forall title lower quote name cfg,
    NoDup (binding_declares (generate_binding title lower quote name cfg)).
Proof. exact binding_nodup. Qed.
Print Assumptions C60_declared_once.

Theorem C60_convergent :
  forall title lower quote name cfg a,
    let c := the_config cfg in
    let items := generate_binding title lower quote name cfg in
    bc_assignee c = Some a ->
    In (BFunc (factory_name title name c) [base_name title name c]) items /\
    In (BFunc (base_name title name c) [("loadInstanceFor" ++ name)%string]) items /\
    factory_name title name c <> base_name title name c /\
    In (BGuard (factory_name title name c)) items /\ In (BGuard (base_name title name c)) items.
Proof. exact binding_convergent. Qed.
Print Assumptions C60_convergent.

Theorem C60_plain :
  forall title lower quote name cfg,
    let c := the_config cfg in
    let items := generate_binding title lower quote name cfg in
    bc_assignee c = None ->
    In (BFunc (base_name title name c) [("loadInstanceFor" ++ name)%string]) items /\
    base_name title name c = factory_name title name c /\
    In (BGuard (base_name title name c)) items /\
    forall f calls, In (BFunc f calls) items -> In (base_name title name c) calls -> False.
Proof. exact binding_plain. Qed.
Print Assumptions C60_plain.

(** Exported or not: only the factory can be exported. *)
Theorem C60_exported :
  forall title lower quote name cfg,
    let c := the_config cfg in
    let items := generate_binding title lower quote name cfg in
    (bc_private c = true -> unexported_first (factory_name title name c)) /\
    (bc_private c = false -> exported_first (factory_name title name c)) /\
    (forall a, bc_assignee c = Some a -> unexported_first (base_name title name c)) /\
    (forall n, In n (binding_declares items) -> n <> factory_name title name c -> unexported_first n).
Proof. exact binding_exported. Qed.
Print Assumptions C60_exported.

(** The functions that the generated code uses but does not declare. *)
Theorem C60_undeclared :
  forall title lower quote name cfg n,
    let c := the_config cfg in
    let items := generate_binding title lower quote name cfg in
    (In n (binding_uses items) /\ ~ In n (binding_declares items)) <->
    (n = ("loadInstanceFor" ++ name)%string /\ bc_loaddir c = "") \/
    (n = ("getThemaFSFor" ++ name)%string /\ bc_loaddir c <> "" /\ (bc_embed c = "" \/ bc_mod c = "")).
Proof. exact binding_missing. Qed.
Print Assumptions C60_undeclared.

(** Where each setting ends up in the generated file; [quote] is [%q]. *)
Theorem C60_settings :
  forall title lower quote name cfg, (forall x, quote x <> "") ->
    let c := the_config cfg in
    let t := generate_binding_text title lower quote name cfg in
    (bc_package c = "" -> bt_package t = lower name) /\
    (bc_package c <> "" -> bt_package t = bc_package c) /\
    bt_lookup t = Some (quote (bc_cuepath c)) /\
    (bc_assignee c = None -> bt_bind t = None) /\
    (forall p, bc_assignee c = Some ("*" ++ p)%string ->
       bt_bind t = Some (("*" ++ p)%string, bc_target c, ("new(" ++ p ++ ")")%string)) /\
    (forall a, bc_assignee c = Some a -> (forall p, a <> ("*" ++ p)%string) ->
       bt_bind t = Some (a, bc_target c, (a ++ "{}")%string)) /\
    (forall p, bt_embed t = Some p <-> p = bc_embed c /\ p <> "") /\
    (forall m, bt_module t = Some m <-> m = bc_mod c /\ m <> "" /\ bc_embed c <> "") /\
    (forall d, bt_loaddir t = Some d <-> d = bc_loaddir c /\ d <> "").
Proof. exact binding_settings. Qed.
Print Assumptions C60_settings.

Definition conv_cfg : binding_config :=
  mkBC "ship.cue" "." "mod.example" "" "" true true (Some "*Ship") (1%N, 0%N) "".
Definition id_str (s : string) : string := s.

Example C60_ex :
  generate_binding (fun _ => "Ship") id_str id_str "ship" (Some conv_cfg) =
  [BFunc "doLineageShip" ["baseLineageShip"]; BFunc "baseLineageShip" ["loadInstanceForship"];
   BGuard "doLineageShip"; BGuard "baseLineageShip"; BEmbed "ship.cue" "themaFSForship";
   BFunc "getThemaFSForship" ["themaFSForship"]; BFunc "loadInstanceForship" ["getThemaFSForship"]] /\
  bv_init (binding_variables (fun _ => "Ship") id_str id_str "ship" (Some conv_cfg)) = "new(Ship)" /\
  generate_binding_text (fun _ => "Ship") id_str (fun x => ("'" ++ x ++ "'")%string) "ship" (Some conv_cfg) =
  mkBT "ship" (Some "''") (Some ("*Ship", (1%N, 0%N), "new(Ship)")) (Some "ship.cue") (Some "mod.example") (Some ".") /\
  generate_binding id_str id_str id_str "ship" None =
  [BFunc "Lineage" ["loadInstanceForship"]; BGuard "Lineage"].
Proof. repeat split; reflexivity. Qed.

(** *** C61 *)

Definition type_decl (n : string) (t : gtype) : decl := DGen [("// " ++ n ++ " defines model for it.")%string] [SType n t].

(** A reference that resolved to a declared type and is left dangling. *)
Definition dangles (f : list decl) : Prop :=
  exists f' n, fixUnderscoreInTypeName f = Ok f' /\
    In n (refs f) /\ In n (declared f) /\ In n (refs f') /\ ~ In n (declared f').

(** Slices of maps, maps to pointers, declarations as another type, constants. *)
Theorem C61_references_refuted :
  dangles [type_decl "A" (TStruct [(["X"], TArray (TMap (TIdent "string") (TIdent "B_C")))]); type_decl "B_C" (TStruct [])] /\
  dangles [type_decl "A" (TMap (TIdent "string") (TStar (TIdent "B_C"))); type_decl "B_C" (TStruct [])] /\
  dangles [type_decl "A" (TIdent "B_C"); type_decl "B_C" (TStruct [])] /\
  dangles [type_decl "B_C" (TIdent "string"); DGen ["// Defines values for B_C."] [SValue ["BCOne"] (Some (TIdent "B_C"))]].
Proof.
  repeat split; (eexists; exists "B_C"; split; [vm_compute; reflexivity|]); vm_compute; intuition discriminate.
Qed.
Print Assumptions C61_references_refuted.

(** Two types that become one. *)
Theorem C61_collision_refuted :
  exists f f', NoDup (declared f) /\ fixUnderscoreInTypeName f = Ok f' /\ ~ NoDup (declared f').
Proof.
  exists [type_decl "B_C" (TStruct []); type_decl "BC" (TStruct [])]. eexists.
  split; [|split; [vm_compute; reflexivity|]].
  - vm_compute. repeat constructor; simpl; intuition discriminate.
  - vm_compute. intros H. inversion H as [|? ? N _]. apply N. left. reflexivity.
Qed.
Print Assumptions C61_collision_refuted.

(** In files of the supported shape all names are renamed and nothing else. *)
Theorem C61_renamed_partial :
  forall f, forallb supported_decl f = true ->
    fixUnderscoreInTypeName f = Ok (map (rename_decl strip) f).
Proof. exact underscore_renames. Qed.
Print Assumptions C61_renamed_partial.

Theorem C61_resolves_partial :
  forall f, forallb supported_decl f = true ->
  exists f', fixUnderscoreInTypeName f = Ok f' /\
    declared f' = map strip (declared f) /\
    refs f' = map strip (refs f) /\
    (forall n, In n (declared f') \/ In n (refs f') -> ~ underscored n) /\
    (forall n, In n (refs f) -> In n (declared f) -> In (strip n) (declared f')) /\
    ((forall a b, In a (declared f ++ refs f) -> In b (declared f ++ refs f) -> strip a = strip b -> a = b) ->
     forall n i, In n (refs f) ->
       (nth_error (declared f') i = Some (strip n) <-> nth_error (declared f) i = Some n)).
Proof. exact underscore_resolves. Qed.
Print Assumptions C61_resolves_partial.

Theorem C61_panics_partial :
  forall f, fixUnderscoreInTypeName f = Panic <->
  exists c ss, In (DGen c ss) f /\
    (ss = [] \/ (c = [] /\ exists n t r, ss = SType n t :: r /\ underscored n)).
Proof. exact underscore_panics. Qed.
Print Assumptions C61_panics_partial.

(** In files of any shape: exactly the names on certain ways lose their
    underscores; everything else stays. *)
Theorem C61_exact_partial :
  forall f f', fixUnderscoreInTypeName f = Ok f' -> Forall2 redecl f f'.
Proof. exact underscore_exact. Qed.
Print Assumptions C61_exact_partial.

Example C61_exact_case :
  let t := TStruct [(["X"], TArray (TMap (TIdent "string") (TIdent "B_C")));
                    (["Y"], TMap (TIdent "string") (TStruct [(["Z"], TIdent "B_C")]))] in
  names t [SField 0; SElt; SVal] "B_C" /\ ~ reached [SField 0; SElt; SVal] /\ ~ under_field [SField 0; SElt; SVal] /\
  names t [SField 1; SVal; SField 0] "B_C" /\ ~ reached [SField 1; SVal; SField 0] /\
  under_field [SField 1; SVal; SField 0] /\
  fixUnderscoreInTypeName [type_decl "A" t] = Ok [type_decl "A"
    (TStruct [(["X"], TArray (TMap (TIdent "string") (TIdent "B_C")));
              (["Y"], TMap (TIdent "string") (TStruct [(["Z"], TIdent "BC")]))])].
Proof.
  cbv zeta. split; [eapply nm_field; [reflexivity|]; constructor; apply nm_val; constructor|].
  split; [intros H; apply (go_reached [SField 0; SElt; SVal]) in H; [discriminate H|discriminate]|].
  split; [intros H; apply underb_spec in H; discriminate H|].
  split; [eapply nm_field; [reflexivity|]; apply nm_val; eapply nm_field; [reflexivity|]; constructor|].
  split; [intros H; apply (go_reached [SField 1; SVal; SField 0]) in H; [discriminate H|discriminate]|].
  split; [apply underb_spec; reflexivity|vm_compute; reflexivity].
Qed.

Definition shape_ex : list decl :=
  [DGen [] [SImport "time"];
   type_decl "A_1" (TStruct
     [(["X"], TIdent "B_C"); (["Y"], TStar (TIdent "B_C"));
      (["Z"], TArray (TStruct [(["W"], TMap (TIdent "string") (TArray (TIdent "B_C")))]));
      (["T"], TSel "time" "Time"); (["U"], TStar (TArray (TIdent "string")))]);
   type_decl "B_C" (TMap (TIdent "string") (TMap (TIdent "string") (TStruct [(["V"], TStar (TIdent "A_1"))])))].

Example C61_ex :
  forallb supported_decl shape_ex = true /\
  declared shape_ex = ["A_1"; "B_C"] /\
  fixUnderscoreInTypeName shape_ex = Ok
    [DGen [] [SImport "time"];
     type_decl "A1" (TStruct
       [(["X"], TIdent "BC"); (["Y"], TStar (TIdent "BC"));
        (["Z"], TArray (TStruct [(["W"], TMap (TIdent "string") (TArray (TIdent "BC")))]));
        (["T"], TSel "time" "Time"); (["U"], TStar (TArray (TIdent "string")))]);
     type_decl "BC" (TMap (TIdent "string") (TMap (TIdent "string") (TStruct [(["V"], TStar (TIdent "A1"))])))].
Proof. repeat split; vm_compute; reflexivity. Qed.

(** *** C62 *)

Theorem C62_exact :
  forall all f f', Forall2 (pruned_decl all) f f' <-> f' = depointerizer all f.
Proof. exact depointerizer_exact. Qed.
Print Assumptions C62_exact.

Theorem C62_no_pointer_left :
  forall f t, In t (file_field_types (depointerizer false f)) -> ~ exists u, t = TStar u /\ slice_or_map u.
Proof. exact depoint_no_pointers. Qed.
Print Assumptions C62_no_pointer_left.

Theorem C62_only_double_pointers_left :
  forall f t, In (TStar t) (file_field_types (depointerizer true f)) ->
  exists u, In (TStar (TStar u)) (file_field_types f).
Proof. exact depoint_all_pointers. Qed.
Print Assumptions C62_only_double_pointers_left.

Theorem C62_idempotent :
  forall f,
    depointerizer false (depointerizer false f) = depointerizer false f /\
    ((forall u, ~ In (TStar (TStar u)) (file_field_types f)) ->
     depointerizer true (depointerizer true f) = depointerizer true f).
Proof. exact (fun f => conj (depoint_idem f) (depoint_all_idem f)). Qed.
Print Assumptions C62_idempotent.

Definition ptr_ex : list decl :=
  [type_decl "A" (TStruct
     [(["X"], TStar (TArray (TStar (TIdent "B")))); (["Y"], TStar (TIdent "B"));
      (["Z"], TMap (TIdent "string") (TStruct [(["W"], TStar (TMap (TIdent "string") (TIdent "B")))]))])].

Example C62_ex :
  depointerizer false ptr_ex =
  [type_decl "A" (TStruct
     [(["X"], TArray (TStar (TIdent "B"))); (["Y"], TStar (TIdent "B"));
      (["Z"], TMap (TIdent "string") (TStruct [(["W"], TMap (TIdent "string") (TIdent "B"))]))])] /\
  depointerizer true ptr_ex =
  [type_decl "A" (TStruct
     [(["X"], TArray (TStar (TIdent "B"))); (["Y"], TIdent "B");
      (["Z"], TMap (TIdent "string") (TStruct [(["W"], TMap (TIdent "string") (TIdent "B"))]))])] /\
  (forall u, ~ In (TStar (TStar u)) (file_field_types ptr_ex)) /\
  depointerizer true [type_decl "A" (TStruct [(["X"], TStar (TStar (TIdent "B")))])] =
  [type_decl "A" (TStruct [(["X"], TStar (TIdent "B"))])].
Proof.
  split; [reflexivity|]. split; [reflexivity|]. split; [|reflexivity].
  intros u. vm_compute. intuition discriminate.
Qed.

(** *** C72 *)

Definition a_union (n : string) (c : string) : decl :=
  DGen [c] [SType n (TStruct [(["union"], TSel "json" "RawMessage")])].
Definition a_method (n : string) : decl := DFunc [] (Some [(["t"], TIdent n)]) "AsFoo" [].

(** A union that is a member of a union takes the next declaration with it, or
    panics if it is the last. *)
Theorem C72_neighbour_lost_refuted :
  (exists f f' d, fixRawData f = Ok f' /\ In d f /\ ~ goes (union f) d /\ ~ In d f') /\
  (exists f, Forall plain_func f /\ fixRawData f = Panic).
Proof.
  split.
  - exists [type_decl "A" (TStruct [(["X"], TIdent "A_X_0")]); a_union "A_X_0" "// A_X_0 defines model for .";
            type_decl "B" (TStruct []); a_method "A_X_0"].
    eexists. exists (type_decl "B" (TStruct [])).
    split; [vm_compute; reflexivity|]. split; [simpl; tauto|]. split.
    + intros [(c0 & cs & p & E & E')|(n & t & [E|[]] & U)].
      * injection E as <- <-. assert (X : has_suffix "// B defines model for it." "defines model for ." = true)
          by (apply has_suffix_spec; exists p; exact E').
        vm_compute in X. discriminate.
      * injection E as <- <-. destruct U as (a & d & m & e & b & E & W & _).
        destruct W as (c & ss & ns & -> & Hi).
        assert (Hd : In (DGen c ss) (a ++ DGen c ss :: m ++ e :: b)) by (apply in_or_app; right; left; auto).
        rewrite <- E in Hd. clear E.
        repeat (destruct Hd as [Hd|Hd];
          [unfold type_decl, a_union, a_method in Hd; try discriminate Hd; injection Hd as <- <-;
           destruct Hi as [Hi|[]]; discriminate Hi|]).
        destruct Hd.
    + vm_compute. intuition discriminate.
  - exists [type_decl "B" (TStruct []); a_union "A" "// A one"; a_method "A"; a_union "A" "// A defines model for ."].
    split; [|vm_compute; reflexivity].
    repeat constructor. exists "A". left. reflexivity.
Qed.
Print Assumptions C72_neighbour_lost_refuted.

(** A reference that stays although its type is gone. *)
Theorem C72_references_refuted :
  exists f f' n, Forall plain_func f /\ fixRawData f = Ok f' /\
    In n (declared f) /\ In n (refs f') /\ ~ In n (declared f').
Proof.
  exists [type_decl "A" (TMap (TIdent "string") (TStar (TIdent "U"))); a_union "U" "// U is one"; a_method "U"].
  eexists. exists "U". split.
  { repeat constructor. exists "U". left. reflexivity. }
  split; [vm_compute; reflexivity|]. vm_compute. intuition discriminate.
Qed.
Print Assumptions C72_references_refuted.

(** When nothing is to go for two reasons, exactly the functions, the unions and
    their nameless members go, and the others stay in order. *)
Theorem C72_declarations_partial :
  forall f, Forall plain_func f -> Forall (goes_once (union f)) f ->
  exists ex f', (forall n, In n ex <-> union f n) /\ fixRawData f = Ok f' /\
    picked (fun d => ~ goes (union f) d) (fun d d' => d' = raw_rewrite ex d) f f'.
Proof. exact raw_single. Qed.
Print Assumptions C72_declarations_partial.

(** In general: a declaration that goes takes one more along for every further
    reason, and panics if there are not as many after it, or not as many before
    it that stay. *)
Theorem C72_exact_partial :
  forall f, Forall plain_func f ->
  exists ex o, (forall n, In n ex <-> union f n) /\ swept (union f) (raw_rewrite ex) [] f o /\
    (forall o', swept (union f) (raw_rewrite ex) [] f o' -> o' = o) /\
    fixRawData f = match o with Some f' => Ok f' | None => Panic end.
Proof. exact raw_exact_one. Qed.
Print Assumptions C72_exact_partial.

Example C72_exact_case :
  let a := type_decl "A" (TStruct [(["X"], TIdent "U")]) in
  let a' := type_decl "A" (TStruct [(["X"], TIdent "any")]) in
  let b := type_decl "B" (TStruct []) in
  let u := a_union "U" "// U defines model for ." in
  let us n := n = "U" in
  swept us (raw_rewrite ["U"]) [] [a; u; b; a_method "U"] (Some [a']) /\
  fixRawData [a; u; b; a_method "U"] = Ok [a'] /\
  swept us (raw_rewrite ["U"]) [] [u; b; a_method "U"] None /\
  fixRawData [u; b; a_method "U"] = Panic /\
  swept us (raw_rewrite ["U"]) [] [a; u] None.
Proof.
  assert (N : forall n p cs, n = "A" \/ n = "B" ->
    [("// " ++ n ++ " defines model for it.")%string] <> (p ++ "defines model for .")%string :: cs).
  { intros n p cs H E. injection E as E _. assert (X := proj2 (has_suffix_spec _ _) (ex_intro _ p E)).
    destruct H as [-> | ->]; vm_compute in X; discriminate X. }
  assert (RA : forall t, reasons (fun n => n = "U") (type_decl "A" t) 0).
  { intros t. apply rs_other; [intros p cs; apply N; auto|]. apply un_miss; [|constructor].
    intros n t' E. injection E as <- _. discriminate. }
  assert (RU : reasons (fun n => n = "U") (a_union "U" "// U defines model for .") 2).
  { apply (rs_nameless _ "// U "). apply un_hit; [reflexivity|constructor]. }
  cbv zeta. split; [|split; [vm_compute; reflexivity|split; [|split; [vm_compute; reflexivity|]]]].
  - apply sw_stay; [apply RA|]. apply (sw_go _ _ _ _ [type_decl "B" (TStruct [])]); [exact RU|cbn; lia|].
    apply (sw_go _ _ _ _ []); [constructor|cbn; lia|]. apply sw_end.
  - apply (sw_few_before _ _ _ _ _ 1); [exact RU|cbn; lia].
  - apply sw_stay; [apply RA|]. apply (sw_few_after _ _ _ _ _ 1); [exact RU|cbn; lia].
Qed.

(** In what stays, exactly the references to unions become [any], for types of a
    shape that is searched. *)
Theorem C72_any_partial :
  forall ex c ss,
    forallb (searched_spec ex) ss = true -> (forall n t, In (SType n t) ss -> ~ In n ex) ->
    raw_rewrite ex (DGen c ss) = DGen c (map (any_spec ex) ss).
Proof. exact raw_rewrite_any. Qed.
Print Assumptions C72_any_partial.

(** For types of any shape: exactly the references to unions that are [reached]
    become [any]. *)
Theorem C72_reached_partial :
  forall ex n t, ~ In n ex ->
  exists t', raw_rewrite_spec ex (SType n t) = SType n t' /\ shape t' = shape t /\
  forall w x, names t' w x <->
    exists y, names t w y /\ ((reached w /\ In y ex /\ x = "any") \/ (~ (reached w /\ In y ex) /\ x = y)).
Proof. exact any_exact. Qed.
Print Assumptions C72_reached_partial.

Example C72_reached_case :
  let t := TStruct [(["X"], TStar (TArray (TIdent "U"))); (["Y"], TArray (TMap (TIdent "string") (TIdent "U")))] in
  names t [SField 0; SPtr; SElt] "U" /\ reached [SField 0; SPtr; SElt] /\
  names t [SField 1; SElt; SVal] "U" /\ ~ reached [SField 1; SElt; SVal] /\
  raw_rewrite_spec ["U"] (SType "A" t) =
  SType "A" (TStruct [(["X"], TStar (TArray (TIdent "any"))); (["Y"], TArray (TMap (TIdent "string") (TIdent "U")))]).
Proof.
  cbv zeta. split; [eapply nm_field; [reflexivity|]; repeat constructor|].
  split; [apply (go_reached [SField 0; SPtr; SElt]); [discriminate|reflexivity]|].
  split; [eapply nm_field; [reflexivity|]; constructor; apply nm_val; constructor|].
  split; [|reflexivity]. intros H. apply (go_reached [SField 1; SElt; SVal]) in H; [discriminate H|discriminate].
Qed.

Theorem C72_functions_partial :
  forall f, (~ Forall plain_func f -> fixRawData f = Panic) /\
    fixRawData f <> OutOfFuel /\ forall e, fixRawData f <> Err e.
Proof. exact (fun f => conj (raw_panics f) (raw_total f)). Qed.
Print Assumptions C72_functions_partial.

Definition raw_ex : list decl :=
  [DGen [] [SImport "encoding/json"];
   type_decl "A" (TStruct [(["X"], TStar (TIdent "U")); (["Y"], TArray (TIdent "U")); (["Z"], TIdent "V")]);
   a_union "U" "// U defines model for U."; type_decl "V" (TMap (TIdent "string") (TIdent "U"));
   DGen ["// U0 defines model for ."] [SType "U0" (TStruct [])];
   a_method "U"; a_union "W" "// W has no methods"].

Example C72_ex :
  fixRawData raw_ex = Ok
    [DGen [] [SImport "encoding/json"];
     type_decl "A" (TStruct [(["X"], TStar (TIdent "any")); (["Y"], TArray (TIdent "any")); (["Z"], TIdent "V")]);
     type_decl "V" (TMap (TIdent "string") (TIdent "any")); a_union "W" "// W has no methods"] /\
  Forall plain_func raw_ex /\
  forallb (searched_spec ["U"]) [SType "A" (TStruct [(["X"], TStar (TIdent "U")); (["Y"], TArray (TIdent "U")); (["Z"], TIdent "V")])] = true.
Proof.
  split; [reflexivity|]. split; [|reflexivity].
  repeat constructor. exists "U". left. reflexivity.
Qed.

Example C72_once_ex : Forall (goes_once (union raw_ex)) raw_ex /\ union raw_ex "U".
Proof.
  assert (P : Forall plain_func raw_ex) by (repeat constructor; exists "U"; left; reflexivity).
  assert (C := union_collected raw_ex _ P eq_refl). split; [|apply C; left; reflexivity].
  apply (goes_once_mono (fun n => n = "U")); [intros n H; apply C in H; destruct H as [<-|[]]; reflexivity|].
  clear P C.
  unfold raw_ex, type_decl, a_union, a_method. repeat constructor; simpl; intros; subst;
    try (match goal with H : [] = _ :: _ |- _ => discriminate H end);
    repeat match goal with
    | H : _ :: _ = _ :: _ |- _ => injection H; clear H; intros; subst
    | H : _ \/ _ |- _ => destruct H
    | H : False |- _ => destruct H
    | H : SType _ _ = SType _ _ |- _ => injection H; clear H; intros; subst
    | H : SImport _ = SType _ _ |- _ => discriminate H
    | H : ?x = ?x |- _ => clear H
    | |- ~ _ => intro
    | H : "U0" = "U" |- _ => discriminate H
    | H : "A" = "U" |- _ => discriminate H
    | H : "V" = "U" |- _ => discriminate H
    | H : "W" = "U" |- _ => discriminate H
    | H : String _ _ = (?p ++ _)%string |- _ =>
        exfalso; revert H; clear; intros H;
        assert (X := proj2 (has_suffix_spec _ _) (ex_intro _ p H)); vm_compute in X; discriminate X
    end;
    match goal with
    | H : [_] = ?a ++ _ :: ?b ++ _ :: _ |- _ =>
        exfalso; apply (f_equal (@length _)) in H; rewrite app_length in H; simpl in H;
        rewrite app_length in H; simpl in H; lia
    end.
Qed.

(** *** C73 *)

(** Tools on files that are just imports, separated by line ends. *)
Definition nl : string := String (ascii_of_nat 10) EmptyString.
Definition decl_imports (f : list decl) : list string :=
  flat_map (fun d => match d with
    | DGen _ ss => flat_map (fun s => match s with SImport p => [p] | _ => [] end) ss
    | _ => [] end) f.
Definition plain_tools : gotools := {|
  go_parse _ s := Ok (mkFile (map (fun p => DGen [] [SImport p]) (split_str s nl)) (split_str s nl));
  go_print f := Ok (String.concat nl (decl_imports (f_decls f)));
  go_imports _ s := Ok s;
  go_import_list s := split_str s nl;
|}.
Definition add_import (p : string) (f : gofile) : outcome gofile :=
  Ok (mkFile (f_decls f ++ [DGen [] [SImport p]]) (f_imports f)).

(** goimports does nothing, yet it is blamed for the import of an applier: what
    the message advises does not help. *)
Theorem C73_added_refuted :
  exists g fname path appliers inp gf gf' buf e,
    go_parse g fname inp = Ok gf /\ ran appliers gf gf' /\
    go_print g gf' = Ok buf /\ go_imports g fname buf = Ok buf /\
    In "os" (decl_imports (f_decls gf')) /\
    postprocess g fname path appliers false inp = Err e.
Proof.
  exists plain_tools, "a.go", "a.go", [add_import "os"], "fmt". do 4 eexists.
  split; [reflexivity|]. split; [econstructor; [reflexivity|constructor]|]. repeat split; vm_compute; auto.
Qed.
Print Assumptions C73_added_refuted.

(** [ran]: the appliers run in order. [news]: the imports that were not there
    before, in order. *)
Theorem C73_exact_partial :
  forall g fname path appliers ignore inp gf gf' buf byt,
  go_parse g fname inp = Ok gf -> ran appliers gf gf' ->
  go_print g gf' = Ok buf -> go_imports g fname buf = Ok byt ->
  (ignore = true \/ incl (go_import_list g byt) (f_imports gf') ->
   postprocess g fname path appliers ignore inp = Ok byt) /\
  (ignore = false -> ~ incl (go_import_list g byt) (f_imports gf') ->
   exists added, news (f_imports gf') (go_import_list g byt) added /\
     postprocess g fname path appliers ignore inp = Err (mkErr []
       ("goimports added the following import statements to " ++ path ++ ": " ++ next_line ++
        String.concat next_line added ++ String (ascii_of_nat 10) EmptyString ++
        "Relying on goimports to find imports significantly slows down code generation. Either add these imports with an AST manipulation in cfg.ApplyFuncs, or set cfg.IgnoreDiscoveredImports to true")%string)).
Proof. exact postprocess_exact. Qed.
Print Assumptions C73_exact_partial.

Theorem C73_in_step_partial :
  forall g fname path appliers inp gf gf' buf byt,
  go_parse g fname inp = Ok gf -> ran appliers gf gf' ->
  go_print g gf' = Ok buf -> go_imports g fname buf = Ok byt ->
  (forall p, In p (f_imports gf') <-> In p (go_import_list g buf)) ->
  (postprocess g fname path appliers false inp = Ok byt <->
   incl (go_import_list g byt) (go_import_list g buf)) /\
  (postprocess g fname path appliers false inp = Ok byt \/
   exists e, postprocess g fname path appliers false inp = Err e).
Proof. exact postprocess_sync. Qed.
Print Assumptions C73_in_step_partial.

Theorem C73_failures_partial :
  forall g fname path appliers ignore inp,
  (forall e, go_parse g fname inp = Err e ->
     postprocess g fname path appliers ignore inp =
     Err (mkErr (e_marks e) ("error parsing generated file: " ++ e_text e)%string)) /\
  (forall gf k a l gf' , go_parse g fname inp = Ok gf -> appliers = k ++ a :: l -> ran k gf gf' ->
     (forall e, a gf' = Err e -> postprocess g fname path appliers ignore inp = Err e) /\
     (a gf' = Panic -> postprocess g fname path appliers ignore inp = Panic)) /\
  (forall gf gf' e, go_parse g fname inp = Ok gf -> ran appliers gf gf' -> go_print g gf' = Err e ->
     postprocess g fname path appliers ignore inp =
     Err (mkErr (e_marks e) ("error formatting generated file: " ++ e_text e)%string)) /\
  (forall gf gf' buf e, go_parse g fname inp = Ok gf -> ran appliers gf gf' ->
     go_print g gf' = Ok buf -> go_imports g fname buf = Err e ->
     postprocess g fname path appliers ignore inp =
     Err (mkErr (e_marks e) ("goimports processing of generated file failed: " ++ e_text e)%string)).
Proof. exact postprocess_stops. Qed.
Print Assumptions C73_failures_partial.

Example C73_ex :
  postprocess plain_tools "a.go" "a.go" [] false ("fmt" ++ nl ++ "os")%string = Ok ("fmt" ++ nl ++ "os")%string /\
  (forall p, In p (f_imports (mkFile [] (split_str ("fmt" ++ nl ++ "os") nl))) <->
             In p (go_import_list plain_tools ("fmt" ++ nl ++ "os")%string)) /\
  postprocess plain_tools "a.go" "a.go" [add_import "os"] true "fmt" = Ok ("fmt" ++ nl ++ "os")%string.
Proof. split; [reflexivity|]. split; [intros; reflexivity|reflexivity]. Qed.

(** *** C74 *)

(** The name of a package is documented to be the lineage's in lower case. *)
Definition echo_env (name : string) : type_env := {|
  te_name := name; te_openapi := Ok "{}"; te_codegen p _ := Ok p; te_todo f := Ok f |}.

Theorem C74_lower_case_refuted :
  forall lower, lower "Ship" = "ship" ->
  exists g san e, te_name e = "Ship" /\
    fst (types_openapi g san e (Some no_type_config)) <> Ok (lower "Ship") /\
    fst (types_openapi g san e (Some no_type_config)) = Ok "Ship".
Proof.
  intros lower E. exists plain_tools, id_str, (echo_env "Ship"). rewrite E.
  split; [reflexivity|]. split; [vm_compute; discriminate|reflexivity].
Qed.
Print Assumptions C74_lower_case_refuted.

(** A [Config] used for a second schema keeps the package of the first. *)
Theorem C74_reuse_refuted :
  exists g san e1 e2 cfg,
    fst (types_openapi g san e2 (Some cfg)) <>
    fst (types_openapi g san e2 (snd (types_openapi g san e1 (Some cfg)))).
Proof.
  exists plain_tools, id_str, (echo_env "a"), (echo_env "b"), no_type_config. vm_compute. discriminate.
Qed.
Print Assumptions C74_reuse_refuted.

Theorem C74_package_partial :
  forall g san e cfg doc,
  te_openapi e = Ok doc ->
  let c := match cfg with Some c => c | None => no_type_config end in
  let pkg := match tc_package c with "" => te_name e | p => p end in
  let file := (te_name e ++ "_type_gen.go")%string in
  (forall src, te_codegen e pkg doc = Ok src ->
     fst (types_openapi g san e cfg) =
     postprocess g (san file) file
       (on_decls (fun f => Ok (depointerizer (tc_no_optional_pointers c) f)) ::
        on_decls fixRawData :: on_decls fixUnderscoreInTypeName ::
        (if tc_decl_in_comments c then [] else [te_todo e]) ++ tc_apply c)
       (tc_ignore_imports c) src) /\
  (forall x, te_codegen e pkg doc = Err x ->
     fst (types_openapi g san e cfg) =
     Err (mkErr (e_marks x) ("openapi generation failed: " ++ e_text x)%string)) /\
  (forall k, cfg = Some k -> exists k', snd (types_openapi g san e cfg) = Some k' /\ tc_package k' = pkg).
Proof. exact types_package. Qed.
Print Assumptions C74_package_partial.

Example C74_ex :
  fst (types_openapi plain_tools id_str (echo_env "ship") None) = Ok "ship" /\
  fst (types_openapi plain_tools id_str (echo_env "ship") (Some (mkTC "boats" [] false true true))) = Ok "boats".
Proof. split; reflexivity. Qed.
