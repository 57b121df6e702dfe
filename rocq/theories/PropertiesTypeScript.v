(** C105: generated TypeScript. *)
From Verif Require Import Prelude Strings Version Util GenName GenNameProofs TypeScript TypeScriptProofs.
Local Open Scope string_scope.
Local Open Scope list_scope.

(** The file holds the types of the parts of the schema and then, unless the lineage
    is a group, the type of the root with its defaults; either failure is reported. *)
Theorem C105_file :
  forall (C Node : Type) (dflt : C) (ttl : string -> string) (e : ts_env (C:=C) (Node:=Node)) cfg,
    (forall c, exists x, ts_children e c = Ok x \/ exists er, ts_children e c = Err er) ->
    (forall n a, exists x, ts_single e n a = Ok x \/ exists er, ts_single e n a = Err er) ->
    ts_file dflt ttl e (the_ts_config cfg) (fst (ts_generate dflt ttl e cfg)).
Proof. exact @ts_generate_spec. Qed.
Print Assumptions C105_file.

(** RootName and RootAsType make no difference to a group. *)
Theorem C105_group :
  forall (C Node : Type) (dflt : C) (ttl : string -> string) (e : ts_env (C:=C) (Node:=Node)) c c',
    tsc_group c = true -> tsc_group c' = true -> the_cuetsy dflt c = the_cuetsy dflt c' ->
    fst (ts_generate dflt ttl e (Some c)) = fst (ts_generate dflt ttl e (Some c')).
Proof. exact @ts_group. Qed.
Print Assumptions C105_group.

(** The default name of the root raises the first letter of a one-word name and
    keeps the rest. *)
Theorem C105_default_name :
  forall u sp tt c r, all wordc (String c r) = true ->
    title u sp tt (String c r) = String (upc c) r.
Proof. exact title_word. Qed.
Print Assumptions C105_default_name.

Section Cases.
Let u : unicode := {| u_upper := fun _ => false; u_lower := fun _ => false; u_digit := fun _ => false;
                      u_letter := fun _ => false; u_number := fun _ => false; u_to_upper := fun r => r |}.
Let ttl := title u (fun _ => false) (fun r => r).
Let env : ts_env (C:=nat) (Node:=string) :=
  mkTse "my_cars" (fun c => if Nat.eqb c 7 then Ok ["enum"] else Err (new_err "no"))
    (fun n a => if a then Err (new_err "no alias") else Ok (n, Some ("default" ++ n)%string)).

Example C105_cases :
  fst (ts_generate 7 ttl env None) = Ok ["enum"; "My_cars"; "defaultMy_cars"] /\
  fst (ts_generate 7 ttl env (Some (mkTsc None true "X" true))) = Ok ["enum"] /\
  fst (ts_generate 7 ttl env (Some (mkTsc None false "X" true))) =
    Err (new_err "generating TS for schema root failed: no alias") /\
  fst (ts_generate 7 ttl env (Some (mkTsc (Some 8) false "X" true))) =
    Err (new_err "generating TS for child elements of schema failed: no") /\
  snd (ts_generate 7 ttl env (Some (mkTsc None false "" true))) = Some (mkTsc (Some 7) false "My_cars" true).
Proof. repeat split. Qed.
End Cases.

(** The default name is not always an identifier: nothing is done about other
    characters, and a lineage may have any name. *)
Theorem C105_identifier_refuted :
  forall u sp tt, exists s, all is_ascii s = true /\ title u sp tt s = "My-Cars" /\
    ts_ident (title u sp tt s) = false.
Proof. intros u sp tt. exists "my-cars". repeat split. Qed.
Print Assumptions C105_identifier_refuted.

(** It is one exactly when the name of the lineage is (names in ASCII). *)
Theorem C105_identifier_partial :
  forall u sp tt s, all is_ascii s = true -> ts_ident (title u sp tt s) = ts_ident s.
Proof. exact title_ident. Qed.
Print Assumptions C105_identifier_partial.

(** A configuration used for a second lineage gives its root the name of the first,
    since the default is stored in it. *)
Theorem C105_reuse_refuted :
  forall u sp,
    exists c, fst (ts_generate tt (title u sp (fun r => r)) (names_env "pets")
                (snd (ts_generate tt (title u sp (fun r => r)) (names_env "cars") (Some c)))) = Ok ["Cars"] /\
      fst (ts_generate tt (title u sp (fun r => r)) (names_env "pets") (Some c)) = Ok ["Pets"].
Proof. exact ts_reuse_wrong. Qed.
Print Assumptions C105_reuse_refuted.

(** What a call leaves behind, exactly; and that using it again is harmless for
    groups, with a RootName, and for lineages with the same default. *)
Theorem C105_left :
  forall (C Node : Type) (dflt : C) (ttl : string -> string) (e : ts_env (C:=C) (Node:=Node)) cfg,
    snd (ts_generate dflt ttl e cfg) =
      match cfg with
      | None => None
      | Some c => Some (mkTsc (Some (the_cuetsy dflt c)) (tsc_group c) (the_root ttl e c) (tsc_alias c))
      end.
Proof. exact @ts_left. Qed.
Print Assumptions C105_left.

Theorem C105_reuse_partial :
  forall (C Node : Type) (dflt : C) (ttl : string -> string) (e e' : ts_env (C:=C) (Node:=Node)) c,
    tsc_group c = true \/ tsc_root c <> "" \/ ttl (ts_name e) = ttl (ts_name e') \/ ttl (ts_name e) = "" ->
    fst (ts_generate dflt ttl e' (snd (ts_generate dflt ttl e (Some c)))) =
    fst (ts_generate dflt ttl e' (Some c)).
Proof. exact @ts_again. Qed.
Print Assumptions C105_reuse_partial.
