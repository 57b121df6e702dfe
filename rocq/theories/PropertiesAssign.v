(** C46, C47, C75: assignability of schemas to Go types. *)
From Verif Require Import Prelude CueFrag CueSem CueProofs Assign AssignSem AssignProofs AssignFacts AssignPathProofs.
Local Open Scope string_scope.
Local Open Scope list_scope.

(** *** C46 *)

(** For plain schemas, [AssignableTo] returns nil exactly when the rules hold, and
    otherwise a non-empty collection of errors. *)
Theorem C46_exact_partial :
  forall sch T fs, struct_arg T fs -> plain sch -> doc_go (GStruct fs) ->
    (assignable sch T = Ok ANil <-> rules false (GStruct fs) sch)
    /\ (~ rules false (GStruct fs) sch -> exists m, m <> [] /\ assignable sch T = Ok (AErrs m)).
Proof. exact exact_rules. Qed.
Print Assumptions C46_exact_partial.

(** Anything but a struct or a pointer to one is refused, whatever the schema. *)
Theorem C46_argument :
  forall sch T,
    (exists fs, struct_arg T fs)
    \/ ((exists g, T = GV (GPtr (GPtr g))) /\ assignable sch T = Ok APointerDepth)
    \/ assignable sch T = Ok ANotStruct.
Proof. exact not_struct. Qed.
Print Assumptions C46_argument.

(** The recursion ends for every schema and every Go type. *)
Theorem C46_ends : forall sch T, assignable sch T <> OutOfFuel.
Proof. exact assignable_ends. Qed.
Print Assumptions C46_ends.

(** A closed list of one element is refused although the rules hold. *)
Theorem C46_one_element_refuted :
  exists s g, doc_go g /\ rules false g s /\ assignable s (GV g) <> Ok ANil.
Proof. exact (ex_intro _ _ (ex_intro _ _ one_element)). Qed.
Print Assumptions C46_one_element_refuted.

(** [number], null, pointers to pointers in fields, and maps are accepted although
    they are not permitted. *)
Theorem C46_undocumented_refuted :
  assignable (field "a" (VType TNumber)) (gfield "a" GNumber) = Ok ANil
  /\ assignable (field "a" (VOr [(false, VType TString); (false, VAtom ANull)])) (gfield "a" (GPtr GString)) = Ok ANil
  /\ (let g := GStruct [("a", GPtr (GPtr GString))] in
      ~ one_pointer g /\ assignable (field "a" (VType TString)) (GV g) = Ok ANil)
  /\ assignable (field "a" (VStruct [] (Some (VType TString)))) (gfield "a" (GMap GBool)) = Ok ANil.
Proof. exact undocumented. Qed.
Print Assumptions C46_undocumented_refuted.

Section Cases.
Let st (fs : list (string * gty)) := GV (GPtr (GStruct fs)).
Let cl (fs : list (string * bool * val)) : val := VStruct fs None.
Let str := VType TString.
Let i32 := VRange (Some (-2147483648)%Z) (Some 2147483647%Z).
Let enum l := VOr (map (fun x => (false, VAtom (AString x))) l).
Let sl v := cl [("slice", false, v)].
Let accepted s T := match assignable s T with Ok ANil => true | _ => false end.

(** A nested case within the hypotheses. *)
Definition case_schema : val :=
  VStruct [("name", false, VType TString);
           ("port", true, VRange (Some 0%Z) (Some 65535%Z));
           ("tags", false, VList [VType TString] (Some (VType TString)));
           ("mode", false, VOr [(true, VAtom (AString "a")); (false, VAtom (AString "b"))]);
           ("in", false, VStruct [("x", false, VOr [(false, VType TBool); (false, VAtom ANull)])] None);
           ("pair", false, VList [VType TInt; VType TInt] None)] None.

Definition case_go : list (string * gty) :=
  [("name", GString); ("port", GInt 0 65535); ("tags", GSlice GString); ("mode", GString);
   ("in", GStruct [("x", GPtr GBool)]); ("pair", GArray 2 GBigInt)].

Example C46_case :
  plain case_schema /\ tight case_schema /\ doc_go (GStruct case_go) /\
  assignable case_schema (GV (GPtr (GStruct case_go))) = Ok ANil /\
  assignable case_schema (GV (GPtr (GStruct (("extra", GAny) :: case_go)))) = Ok (AErrs [([SField "extra"], MAbsentSchema)]).
Proof.
  split; [|split; [|split; [|split]]].
  - apply PStruct; [repeat (constructor; [cbn; intuition discriminate|]); constructor|].
    apply Forall_forall; intros f [<-|[<-|[<-|[<-|[<-|[<-|[]]]]]]]; cbn [fval snd].
    + apply PScal; [reflexivity|exact I].
    + apply PScal; [reflexivity|exact I].
    + apply PList; [constructor; [apply PScal; [reflexivity|exact I]|constructor]|intros u E; inversion E; apply PScal; [reflexivity|exact I]|discriminate].
    + apply PScal; [reflexivity|right; split; reflexivity].
    + apply PStruct; [repeat (constructor; [cbn; intuition discriminate|]); constructor|].
      constructor; [apply PScal; [reflexivity|left; reflexivity]|constructor].
    + apply PList; [repeat (constructor; [apply PScal; [reflexivity|exact I]|]); constructor|discriminate|].
      intros _ C. discriminate.
  - apply TStruct. apply Forall_forall; intros f [<-|[<-|[<-|[<-|[<-|[<-|[]]]]]]]; cbn [fval snd].
    + apply TScal. reflexivity.
    + apply TScal. reflexivity.
    + apply TList; [repeat (constructor; [apply TScal; reflexivity|]); constructor|intros u E; inversion E; apply TScal; reflexivity|].
      intros _. split; [repeat constructor|intros u E; inversion E; reflexivity].
    + apply TScal. reflexivity.
    + apply TStruct. constructor; [apply TScal; reflexivity|constructor].
    + apply TList; [repeat (constructor; [apply TScal; reflexivity|]); constructor|discriminate|].
      intros _. split; [repeat constructor|discriminate].
  - cbn. split; [repeat (constructor; [cbn; intuition discriminate|]); constructor|].
    repeat (split; try lia; try exact I). constructor; [intros []|constructor].
  - vm_compute. reflexivity.
  - vm_compute. reflexivity.
Qed.

(** The cases of [assignable_test.go]. *)
Example C46_testdata :
  assignable (cl []) (GV (GStruct [])) = Ok ANil /\ assignable VTop (GV GString) = Ok ANotStruct /\
  accepted (cl [("foo",false,str)]) (st [("foo",GString)]) = true /\
  accepted (cl [("aString",false,str);("anInt",false,i32)]) (st [("aString",GAny);("anInt",GAny)]) = true /\
  assignable (cl [("hopeful",false,VOr [(false,cl [("aString",false,str)]);(false,cl [("anInt",false,i32)])])])
    (st [("hopeful",GStruct [("aString",GAny)])]) = Ok (AErrs [([SField "hopeful"], MStructDisj)]) /\
  accepted (cl [("foo",false,enum ["foo";"bar"])]) (st [("foo",GString)]) = true /\
  assignable (cl [("foo",false,VOr [(false,VAtom (AString "foo"));(false,VAtom (AInt 14))])]) (st [("foo",GString)])
    = Ok (AErrs [([SField "foo"], MKind (k_or (k_of_type TInt) (k_of_type TString)) (k_of_type TString))]) /\
  assignable (cl [("foo",false,enum ["foo";"bar"]);("bar",false,VType TInt)]) (st [("foo",GString)])
    = Ok (AErrs [([SField "bar"], MAbsentGo)]) /\
  assignable (cl [("foo",false,enum ["foo";"bar"])]) (st [("foo",GString);("bar",GBigInt)])
    = Ok (AErrs [([SField "bar"], MAbsentSchema)]) /\
  accepted (cl [("foo",true,str)]) (st [("foo",GString)]) = true /\
  assignable (cl [("foo",false,VType TInt)]) (st [("foo",GString)])
    = Ok (AErrs [([SField "foo"], MKind (k_of_type TInt) (k_of_type TString))]) /\
  accepted (sl (VList [] (Some str))) (st [("slice",GSlice GString)]) = true /\
  accepted (sl (VList [] (Some str))) (st [("slice",GPtr (GSlice GString))]) = true /\
  accepted (sl (VOr [(false,VList [] (Some str));(true,VList [VAtom (AString "foo");VAtom (AString "bar")] None)]))
    (st [("slice",GSlice GString)]) = true /\
  assignable (sl (VOr [(false,VList [] (Some str));(false,VList [] (Some (VType TInt)));
                       (false,VList [] (Some (VType TBool)));(true,VList [VAtom (AInt 1);VAtom (AInt 2)] None)]))
    (st [("slice",GSlice GString)]) = Ok (AErrs [([SField "slice"], MComplexList)]) /\
  assignable (sl (VList [] None)) (st [("slice",GSlice GString)]) = Ok (AErrs [([SField "slice"], MClosedList)]) /\
  assignable (sl (VList [] (Some str))) (st [("slice",GArray 3 GString)]) = Ok (AErrs [([SField "slice"], MOpenList)]) /\
  accepted (sl (VList [] None)) (st [("slice",GArray 0 GString)]) = true /\
  accepted (sl (VList [str;str] None)) (st [("slice",GArray 2 GString)]) = true /\
  assignable (sl (VList [str;str] None)) (st [("slice",GArray 3 GString)]) = Ok (AErrs [([SField "slice"], MLen)]) /\
  assignable (sl (VList [] (Some (VType TInt)))) (st [("slice",GSlice GString)])
    = Ok (AErrs [([SField "slice"; SAny], MKind (k_of_type TInt) (k_of_type TString))]) /\
  accepted (sl (VList [str] (Some str))) (st [("slice",GSlice GString)]) = true /\
  assignable (sl (VList [VType TInt] (Some str))) (st [("slice",GSlice GString)])
    = Ok (AErrs [([SField "slice"], MAnyType)]) /\
  accepted (sl (VList [] (Some (cl [("l",false,enum ["foo";"bar"])])))) (st [("slice",GSlice (GStruct [("l",GString)]))]) = true /\
  accepted (sl (VList [] (Some (VList [] (Some str))))) (st [("slice",GSlice (GSlice GString))]) = true /\
  accepted (cl [("both",false,VOr [(false,str);(false,VAtom ANull)])]) (st [("both",GPtr GString)]) = true.
Proof. repeat match goal with |- _ /\ _ => split end; vm_compute; reflexivity. Qed.
End Cases.

(** *** C47 *)

(** Every value of a plain and tight schema that is assignable to a Go type can be
    held by it. *)
Theorem C47_partial :
  forall sch T fs d, struct_arg T fs -> plain sch -> doc_go (GStruct fs) -> tight sch ->
    assignable sch T = Ok ANil -> inst sch d = true -> rep (GStruct fs) d = true.
Proof. exact no_loss. Qed.
Print Assumptions C47_partial.

(** Not so in general: integers with a default, null beside a default, maps, lists
    of lists, lists and structs with a default, open structs. *)
Theorem C47_refuted :
  loses (VOr [(true, VAtom (AInt 5)); (false, VType TInt)]) i8 (DAtom (AInt 300))
  /\ loses (VOr [(true, VAtom (AString "a")); (false, VType TString); (false, VAtom ANull)]) GString (DAtom ANull)
  /\ loses (VStruct [] (Some (VType TString))) (GMap GBool) (DStruct [("k", DAtom (AString "x"))])
  /\ loses (VList [VList [] (Some (VType TString)); VList [] (Some (VType TInt))] None)
       (GArray 2 (GSlice GBigInt))
       (DList [DList [DAtom (AString "x")]; DList []])
  /\ loses (VOr [(false, VList [] (Some (VType TString))); (true, VList [VAtom (AInt 1)] None)])
       (GSlice GString) (DList [DAtom (AInt 1)])
  /\ loses (VOr [(false, VStruct [("i", false, VOr [(false, VType TInt); (false, VType TString)])] None);
                 (true, VStruct [("i", false, VAtom (AString "x"))] None)])
       (GStruct [("i", GString)]) (DStruct [("i", DAtom (AInt 1))])
  /\ loses (VStruct [("i", false, VType TInt)] (Some VTop)) (GStruct [("i", GBigInt)])
       (DStruct [("i", DAtom (AInt 1)); ("j", DAtom (AInt 2))]).
Proof. exact lossy. Qed.
Print Assumptions C47_refuted.

Definition case_data : data :=
  DStruct [("name", DAtom (AString "n")); ("tags", DList [DAtom (AString "x"); DAtom (AString "y")]);
           ("mode", DAtom (AString "b")); ("in", DStruct [("x", DAtom ANull)]);
           ("pair", DList [DAtom (AInt 1); DAtom (AInt 2)])].

Example C47_case :
  assignable case_schema (GV (GPtr (GStruct case_go))) = Ok ANil /\ inst case_schema case_data = true /\
  rep (GStruct case_go) case_data = true /\
  rep (GStruct case_go) (DStruct [("name", DAtom ANull)]) = false.
Proof. repeat match goal with |- _ /\ _ => split end; vm_compute; reflexivity. Qed.

(** *** C75 *)

(** When no field of the Go struct is itself a struct: exactly the fields that do
    not fit are reported, each under its own name, and the missing ones as missing
    on the right side. *)
Theorem C75_flat_partial :
  forall sfs rest fs T m, struct_arg T fs ->
    plain (VStruct sfs rest) -> doc_go (GStruct fs) -> Forall (fun f => no_struct (snd f) = true) fs ->
    assignable (VStruct sfs rest) T = Ok (AErrs m) ->
    (forall l, reported m l <-> wrong sfs fs l)
    /\ (forall e, In e m -> exists l q, fst e = SField l :: q)
    /\ (forall l, In l (map flabel sfs) -> ~ In l (map fst fs) -> forall q msg, In (SField l :: q, msg) m <-> q = [] /\ msg = MAbsentGo)
    /\ (forall l, In l (map fst fs) -> ~ In l (map flabel sfs) -> forall q msg, In (SField l :: q, msg) m <-> q = [] /\ msg = MAbsentSchema).
Proof. exact reports. Qed.
Print Assumptions C75_flat_partial.

(** At any depth: every report is a fault, with the message that its kind calls for,
    under its path or, for a field that only Go has, under its bare name; every fault
    has an entry under the path where it is reported; and where no struct inside the
    argument has a field of its own, the report is exactly the set of faults.  Faults are
    what the documented rules forbid. *)
Theorem C75_nested_partial :
  forall sch fs T m, struct_arg T fs -> plain sch -> doc_go (GStruct fs) ->
    assignable sch T = Ok (AErrs m) ->
    (forall p msg, In (p, msg) m -> exists q, fault false (GStruct fs) sch q msg /\ p = place [] q msg)
    /\ (forall q msg, fault false (GStruct fs) sch q msg -> exists msg', In (place [] q msg, msg') m)
    /\ NoDup (map fst m)
    /\ ((forall q, fault false (GStruct fs) sch q MAbsentSchema -> List.length q = 1) ->
        forall q msg, In (q, msg) m <-> fault false (GStruct fs) sch q msg).
Proof. exact reports_nested. Qed.
Print Assumptions C75_nested_partial.

Theorem C75_faults :
  forall g s, doc_go g -> plain s -> rules false g s <-> forall q m, ~ fault false g s q m.
Proof. exact faults_rules. Qed.
Print Assumptions C75_faults.

Definition deep_schema : val :=
  VStruct [("m", false, VStruct [("a", false, VType TInt); ("b", true, VType TString)] None);
           ("l", false, VList [] (Some (VStruct [("x", false, VType TBool)] None)))] None.
Definition deep_go : list (string * gty) :=
  [("m", GPtr (GStruct [("a", GString)])); ("l", GSlice (GStruct [("x", GString)])); ("z", GBool)].

Example C75_deep :
  plain deep_schema /\ doc_go (GStruct deep_go) /\
  (forall q, fault false (GStruct deep_go) deep_schema q MAbsentSchema -> List.length q = 1) /\
  assignable deep_schema (GV (GStruct deep_go)) =
    Ok (AErrs [([SField "m"; SField "a"], MKind (k_of_type TInt) (k_of_type TString));
               ([SField "m"; SField "b"], MAbsentGo);
               ([SField "l"; SAny; SField "x"], MKind (k_of_type TBool) (k_of_type TString));
               ([SField "z"], MAbsentSchema)]).
Proof.
  split; [|split; [|split]].
  - apply PStruct; [repeat (constructor; [cbn; intuition discriminate|]); constructor|].
    constructor; [|constructor; [|constructor]]; cbn [fval snd].
    + apply PStruct; [repeat (constructor; [cbn; intuition discriminate|]); constructor|].
      repeat (constructor; [apply PScal; [reflexivity|exact I]|]). constructor.
    + apply PList; [constructor| |discriminate]. intros u E. inversion E.
      apply PStruct; [repeat (constructor; [cbn; intuition discriminate|]); constructor|].
      repeat (constructor; [apply PScal; [reflexivity|exact I]|]). constructor.
  - cbn. repeat split; repeat (constructor; [cbn; intuition discriminate|]); constructor.
  - intros q F. apply struct_fault in F as [[l [_ [_ [_ C]]]]|[[l [_ [_ [-> _]]]]|[l [g [o [v [q' [H1 [H2 [H3 ->]]]]]]]]]];
      [discriminate|reflexivity|]. exfalso.
    cbn in H1. destruct H1 as [H1|[H1|[H1|[]]]]; injection H1 as <- <-; cbn in H2;
      (destruct H2 as [H2|[H2|[]]]; try discriminate; injection H2 as <- <-).
    + inversion H3 as [? ? ? ? C|? ? ? ? ? F| | | | |]; subst; [inversion C; discriminate|].
      apply struct_fault in F as [[l [_ [_ [_ C]]]]|[[l [C [N _]]]|[l [g [o [v [q [H1 [H2 [H4 ->]]]]]]]]]]; [discriminate| |].
      * cbn in C. destruct C as [<-|[]]. apply N. left. reflexivity.
      * cbn in H1. destruct H1 as [H1|[]]. injection H1 as <- <-. cbn in H2.
        destruct H2 as [H2|[H2|[]]]; try discriminate. inversion H4; subst; match goal with K : complaint _ _ _ _ |- _ => inversion K end; try discriminate.
    + inversion H3 as [? ? ? ? C| | | | | |]; subst; [inversion C|].
      match goal with K : fault _ (GStruct _) _ _ _ |- _ => rename K into F end.
      apply struct_fault in F as [[l [_ [_ [_ C]]]]|[[l [C [N _]]]|[l [g [o [v [q0 [H1 [H2 [H4 ->]]]]]]]]]]; [discriminate| |].
      * cbn in C. destruct C as [<-|[]]. apply N. left. reflexivity.
      * cbn in H1. destruct H1 as [H1|[]]. injection H1 as <- <-. inversion H4; subst; match goal with K : complaint _ _ _ _ |- _ => inversion K end; try discriminate.
  - vm_compute. reflexivity.
Qed.

(** A Go-only field of a nested struct is reported as if it were at the top, and
    replaces the error of the top-level field of that name. *)
Theorem C75_refuted :
  assignable hide_schema (GV hide_go) = Ok (AErrs [([SField "a"], MAbsentSchema)])
  /\ exists m, assignable (VStruct [("a", false, VType TInt)] None) (GV (GStruct [("a", GString)])) = Ok (AErrs [([SField "a"], m)])
     /\ m <> MAbsentSchema.
Proof. exact hidden. Qed.
Print Assumptions C75_refuted.

Definition flat_schema : list (string * bool * val) :=
  [("a", false, VType TString); ("b", false, VType TInt); ("c", false, VList [] (Some (VType TInt)))].
Definition flat_go : list (string * gty) :=
  [("a", GString); ("c", GSlice GString); ("d", GBool)].

Example C75_case :
  plain (VStruct flat_schema None) /\ doc_go (GStruct flat_go) /\
  Forall (fun f => no_struct (snd f) = true) flat_go /\
  assignable (VStruct flat_schema None) (GV (GStruct flat_go)) =
    Ok (AErrs [([SField "b"], MAbsentGo);
               ([SField "c"; SAny], MKind (k_of_type TInt) (k_of_type TString));
               ([SField "d"], MAbsentSchema)]).
Proof.
  split; [|split; [|split]].
  - apply PStruct; [repeat (constructor; [cbn; intuition discriminate|]); constructor|].
    constructor; [|constructor; [|constructor; [|constructor]]]; cbn [fval snd].
    + apply PScal; [reflexivity|exact I].
    + apply PScal; [reflexivity|exact I].
    + apply PList; [constructor|intros u E; inversion E; apply PScal; [reflexivity|exact I]|discriminate].
  - cbn. split; [repeat (constructor; [cbn; intuition discriminate|]); constructor|]. tauto.
  - repeat constructor.
  - vm_compute. reflexivity.
Qed.
