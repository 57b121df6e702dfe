(** The exemplar lineages ([exemplars/*.cue]) in the CUE fragment.

    Schemas are closed, as [_#schema] is a definition ([lineage.cue:225-233]); the
    lineages have no [joinSchema]. The bodies of lenses are programs over [input]
    of the small language below. *)
From Verif Require Import Prelude Version Split Lineage CueFrag CueSem CueEval.
Local Open Scope string_scope.
Local Open Scope list_scope.

(** *** Bodies of lenses *)

(** [GHas f] is [input.f != _|_], [GIs f t] is [(input.f & t) != _|_], [GIsNot f t]
    is [(input.f & t) == _|_], [GEq f s] is [input.f == "s"], [GNe f s] is
    [input.f != "s"]. *)
Inductive guard := GHas (f : string) | GIs (f : string) (t : val) | GIsNot (f : string) (t : val)
                 | GEq (f s : string) | GNe (f s : string).
(** [input.f], ["s"] and [input.f == "s"]. *)
Inductive lexpr := EField (f : string) | EStr (s : string) | EIs (f s : string).
(** [if g1 if g2 ... {label: e}]; a field without guards is written plainly. *)
Definition lbody := list (list guard * (string * lexpr)).

(** The field of the input, [None] when it is undefined. *)
Definition in_field (v : val) (f : string) : option val :=
  match v with
  | VStruct fs _ => match field_of f fs with Some x => if fopt x then None else Some (fval x) | None => None end
  | _ => None
  end.

(** Comparison of the field with a string: [None] is an error, as for undefined or
    non-concrete fields, and for values other than strings. *)
Definition compared (v : val) (f s : string) : option bool :=
  match in_field v f with
  | Some x => match eval x None with Con (DAtom (AString y)) => Some (String.eqb y s) | _ => None end
  | None => None
  end.
Definition fits (v : val) (f : string) (t : val) : bool :=
  match in_field v f with
  | Some x => match eval (unify x t) None with Bot => false | _ => true end
  | None => false
  end.
Definition holds (v : val) (g : guard) : option bool :=
  match g with
  | GHas f => Some (match in_field v f with Some _ => true | None => false end)
  | GIs f t => Some (fits v f t)
  | GIsNot f t => Some (negb (fits v f t))
  | GEq f s => compared v f s
  | GNe f s => option_map negb (compared v f s)
  end.
(** Later guards are looked at only when the earlier ones hold. *)
Fixpoint hold (v : val) (gs : list guard) : option bool :=
  match gs with
  | [] => Some true
  | g :: r => match holds v g with Some true => hold v r | x => x end
  end.

(** A reference to an undefined field is an error, which makes the struct one. *)
Definition lvalue (v : val) (e : lexpr) : val :=
  match e with
  | EField f => match in_field v f with Some x => x | None => VBot end
  | EStr s => VAtom (AString s)
  | EIs f s => match compared v f s with Some b => VAtom (ABool b) | None => VBot end
  end.

(** Fields written twice unify. *)
Fixpoint run_body (b : lbody) (v : val) : val :=
  match b with
  | [] => VStruct [] (Some VTop)
  | (gs, (l, e)) :: r =>
      match hold v gs with
      | None => VBot
      | Some false => run_body r v
      | Some true => unify (VStruct [(l, false, lvalue v e)] (Some VTop)) (run_body r v)
      end
  end.

(** The lacunas a lens emits: one list of guards for each lacuna. A guard that is an
    error counts as not emitting; in the exemplars the result is an error then too. *)
Definition run_lacunas (gs : list (list guard)) (v : val) : list N :=
  flat_map (fun g => match hold v g with Some true => [0%N] | _ => [] end) gs.

Definition lens_of (from to : version) (b : lbody) (gs : list (list guard)) :=
  ((Some to, Some from), (run_body b, run_lacunas gs)).
Definition schema_of (v : N * N) (s : val) := ((Some (fst v), Some (snd v)), (s, s)).

Definition copy (f : string) : list guard * (string * lexpr) := ([], (f, EField f)).
Definition strT := VType TString.
Definition lit (s : string) := VAtom (AString s).

(** *** [rename.cue] *)
Definition rename00 := VStruct [("before", false, strT); ("unchanged", false, strT)] None.
Definition rename10 := VStruct [("after", false, strT); ("unchanged", false, strT)] None.
Definition rename : cval := CLin "rename" [schema_of (0, 0) rename00; schema_of (1, 0) rename10]%N
  [lens_of (1, 0)%N (0, 0)%N [([], ("before", EField "after")); copy "unchanged"] [];
   lens_of (0, 0)%N (1, 0)%N [([], ("after", EField "before")); copy "unchanged"] []].

(** *** [narrowing.cue] *)
Definition narrowing00 :=
  VStruct [("boolish", false, VOr [(false, lit "true"); (false, lit "false"); (false, VType TBool); (false, strT)])] None.
Definition narrowing10 := VStruct [("properbool", false, VType TBool)] None.
Definition narrowing : cval := CLin "narrowing" [schema_of (0, 0) narrowing00; schema_of (1, 0) narrowing10]%N
  [lens_of (1, 0)%N (0, 0)%N [([], ("boolish", EField "properbool"))] [];
   lens_of (0, 0)%N (1, 0)%N
     [([GIs "boolish" strT], ("properbool", EIs "boolish" "true"));
      ([GIs "boolish" (VType TBool)], ("properbool", EField "boolish"))]
     [[GIs "boolish" strT; GIsNot "boolish" (VOr [(false, lit "true"); (false, lit "false")])]]].

(** *** [defaultchange.cue]; [input.anion] is written there. *)
Definition defaultchange00 :=
  VStruct [("aunion", false, VOr [(true, lit "foo"); (false, lit "bar"); (false, lit "baz")])] None.
Definition defaultchange10 :=
  VStruct [("aunion", false, VOr [(false, lit "foo"); (true, lit "bar"); (false, lit "baz")])] None.
Definition defaultchange : cval :=
  CLin "defaultchange" [schema_of (0, 0) defaultchange00; schema_of (1, 0) defaultchange10]%N
  [lens_of (1, 0)%N (0, 0)%N
     [([GEq "aunion" "bar"], ("aunion", EStr "foo")); ([GNe "aunion" "bar"], ("aunion", EField "anion"))]
     [[GEq "aunion" "foo"]];
   lens_of (0, 0)%N (1, 0)%N
     [([GEq "aunion" "foo"], ("aunion", EStr "bar")); ([GNe "aunion" "foo"], ("aunion", EField "anion"))]
     [[GEq "aunion" "foo"]]].

(** *** [expand.cue] *)
Definition withDefault (l : list string) : string * bool * val :=
  ("withDefault", true, VOr (map (fun s => (String.eqb s "foo", lit s)) l)).
Definition expand00 := VStruct [("init", false, strT)] None.
Definition expand01 := VStruct [("init", false, strT); ("optional", true, VType TInt)] None.
Definition expand02 := VStruct [("init", false, strT); ("optional", true, VType TInt); withDefault ["foo"; "bar"]] None.
Definition expand03 := VStruct [("init", false, strT); ("optional", true, VType TInt); withDefault ["foo"; "bar"; "baz"]] None.
Definition expand : cval :=
  CLin "expand" [schema_of (0, 0) expand00; schema_of (0, 1) expand01; schema_of (0, 2) expand02; schema_of (0, 3) expand03]%N
  [lens_of (0, 1)%N (0, 0)%N [copy "init"] [];
   lens_of (0, 2)%N (0, 1)%N [copy "init"; ([GHas "optional"], ("optional", EField "optional"))] [];
   lens_of (0, 3)%N (0, 2)%N [copy "init"; ([GHas "optional"], ("optional", EField "optional"));
                              ([GHas "withDefault"], ("withDefault", EField "withDefault"))] []].

(** *** [single.cue] *)
Definition single00 := VStruct [("astring", false, strT); ("anint", false, VType TInt); ("abool", false, VType TBool)] None.
Definition single : cval := CLin "single" [schema_of (0, 0) single00]%N [].

(** *** [disjunct.cue]; the body of its lens is commented out there. *)
Definition branch (n : Z) (f : string) (v : val) : bool * val :=
  (false, VStruct [("branch", false, VAtom (AInt n)); (f, false, v)] None).
Definition disjunct00 :=
  VStruct [("rootfield", false, VOr [branch 1 "branchone" strT; branch 2 "branchtwo" strT])] None.
Definition inner (t : bty) : bool * val := (false, VStruct [("branchthreeinner", false, VType t)] None).
Definition disjunct01 :=
  VStruct [("rootfield", false, VOr [branch 1 "branchone" strT; branch 2 "branchtwo" strT;
             branch 3 "branchthree" (VOr [inner TInt; inner TString])])] None.
Definition disjunct : cval := CLin "disjunct" [schema_of (0, 0) disjunct00; schema_of (0, 1) disjunct01]%N
  [lens_of (0, 1)%N (0, 0)%N [] []].

(** [exemplars.go:39-46] the options of [All], and [exemplars.go:144-151] those that
    [lineageForExemplar] adds. *)
Definition nameOpts (name : string) : list bindOption :=
  if existsb (String.eqb name) ["defaultchange"; "disjunct"] then [OSkipBuggyChecks] else [].
Definition factoryOpts (name : string) (o : list bindOption) : list bindOption :=
  if existsb (String.eqb name) ["defaultchange"; "narrowing"; "rename"] then o ++ [OSkipBuggyChecks] else o.
