(** C121: imports of generated Go code. *)
From Verif Require Import Prelude Strings Version Util CliProofs GenName GenNameProofs GenType GenTypeProofs GenTypeFacts GoJsonSpec GoJsonProofs GenGlobals GenImports GenImportsProofs GenImportsFacts.
From Coq Require Import Permutation.
Local Open Scope string_scope.
Local Open Scope list_scope.

(** A schema within a component has a Go type and names its package, and the
    package is not imported. *)
Theorem C121_imports_refuted : forall quote, exists r s g, within_ref r s /\ asks s g /\ (forall t, within_ref r t -> is_map t) /\
  externalImports quote [] (Some (doc r)) [] = Ok [].
Proof. exact lost. Qed.
Print Assumptions C121_imports_refuted.

(** An extension that says the name twice, in different cases, may be read in two ways. *)
Theorem C121_order_refuted : exists l l', Permutation l l' /\ NoDup (map fst l) /\
  exists g g', import_fields l (mkImport "" "") = Ok g /\ import_fields l' (mkImport "" "") = Ok g' /\ g <> g'.
Proof. exact either_name. Qed.
Print Assumptions C121_order_refuted.

(** The imports are those of the mapping, and those that the schemas ask for which are
    reached from the components through properties of objects and items of arrays; unless
    one of these asks in a way that cannot be read, which is an error that names the type of
    what is not a map or a string. The order in which
    maps are ranged over, which is that of the lists, has no part in it. *)
Theorem C121_exact_partial : forall quote mapping c ex,
  (forall s, in_document c ex s -> is_map s) -> (forall s, in_document c ex s -> clear s) ->
  (exists l, externalImports quote mapping (Some c) ex = Ok l /\ (forall s, in_document c ex s -> ~ faulty s) /\
     forall t, In t l <-> (exists n g, In (n, g) (constructImportMapping mapping) /\ statement quote g t) \/
                          (exists s g, in_document c ex s /\ asks s g /\ statement quote g t)) \/
  (exists e s t, externalImports quote mapping (Some c) ex = Err e /\
      e_text e = ("error getting type definition imports: failed to convert type: " ++ t)%string /\
      in_document c ex s /\ unreadable s t).
Proof. exact document_exact. Qed.
Print Assumptions C121_exact_partial.

(** One package is imported under one name, and different ones under different names,
    whatever the order of the mapping. *)
Theorem C121_aliases_partial : forall m, exists ps, NoDup ps /\ (forall p, In p ps <-> In p (map snd m)) /\
  forall m', Permutation m m' ->
    Forall2 (fun sp r => fst r = fst sp /\ gi_path (snd r) = snd sp /\
               exists i, nth_error ps i = Some (snd sp) /\ gi_name (snd r) = ("externalRef" ++ itoa i)%string)
      m' (constructImportMapping m').
Proof. exact aliases. Qed.
Print Assumptions C121_aliases_partial.

(** A document with one import in a property and one in the items of another. *)
Definition two : iref :=
  object_of [("id", with_import "string" "github.com/google/uuid");
             ("all", IRef "" (Some (ISch "array" [] [] (Some (with_import "string" "gopkg.in/guregu/null.v4")) None [] [] [])))] None [].
Example C121_case :
  (forall s, in_document (doc two) [] s -> is_map s) /\ (forall s, in_document (doc two) [] s -> clear s) /\
  externalImports (fun s => s) [("a.yaml", "q"); ("b.yaml", "p"); ("c.yaml", "q")] (Some (doc two)) [] =
  Ok ["externalRef1 q"; "externalRef0 p"; "externalRef1 q"; "github.com/google/uuid"; "gopkg.in/guregu/null.v4"].
Proof.
  assert (A : forall s, in_document (doc two) [] s -> exts_of s = [] \/ exists p, exts_of s = [("x-go-type", XStr "uuid.UUID"); ("x-go-type-import", XMap [("Path", XStr p)])]).
  { intros s [r [[[n [[E|[]] _]]|[[]|[[]|[]]]] L]]. injection E as <- <-. inversion L as [|? ? ? ? ? ? ? ? ? n p ? ? T I P|]; subst; [auto|].
    destruct I as [E|[E|[]]]; injection E as <- <-.
    - inversion P as [|? ? ? ? ? ? ? ? ? n' p' ? ? T' I' P'|]; subst; [right; eexists; reflexivity|destruct I'].
    - inversion P as [|? ? ? ? ? ? ? ? ? n' p' ? ? T' I' P'|? ? ? p' ? ? ? ? ? ? P']; subst; [left; reflexivity|destruct I'|].
      inversion P' as [|? ? ? ? ? ? ? ? ? n' q ? ? T' I' Q'|]; subst; [right; eexists; reflexivity|destruct I']. }
  split; [|split; [|vm_compute; reflexivity]].
  - intros s H. unfold is_map. destruct (A s H) as [->|[p ->]]; repeat constructor; cbn; intuition discriminate.
  - intros s H l [_ [I _]] k v w K V W. destruct (A s H) as [E|[p E]]; rewrite E in I; [destruct I|].
    destruct I as [I|[I|[]]]; [discriminate I|]. injection I as <-.
    assert (U : forall j a, says [("Path", XStr p)] j a -> fold j = j -> a = if String.eqb j "path" then p else "").
    { intros j a [[k' [F [J|[]]]]|[F ->]] Q.
      - injection J as <- ->. apply fold_letters in F; [|exact Q]. rewrite <- F. reflexivity.
      - destruct (String.eqb_spec j "path") as [->|D]; [|reflexivity]. destruct (F "Path" _ (or_introl eq_refl)). apply fold_letters; reflexivity. }
    destruct K as [-> | ->]; rewrite (U _ v V eq_refl), (U _ w W eq_refl); reflexivity.
Qed.
