(** Generating TypeScript types ([encoding/typescript/gen.go], cited as
    [gen.go]). *)
From Verif Require Import Prelude Strings Version Util GenName.
Local Open Scope string_scope.
Local Open Scope list_scope.

(** *** strings.Title, a standard-library function *)

(** [isSeparator] of package [strings]; [space] is [unicode.IsSpace] for runes that
    are not ASCII. *)
Definition title_sep (u : unicode) (space : N -> bool) (r : N) : bool :=
  if (r <? 128)%N
  then negb (a_digit r || a_lower r || a_upper r || (r =? 95)%N)
  else if is_letter u r || is_digit u r then false else space r.

(** [strings.Title]; [ttl] is [unicode.ToTitle] for runes that are not ASCII. *)
Definition to_title (u : unicode) (ttl : N -> N) (r : N) : N :=
  if (r <? 128)%N then to_upper u r else ttl r.
Fixpoint title_from (u : unicode) (space : N -> bool) (ttl : N -> N) (prev : N) (rs : list N) : list N :=
  match rs with
  | [] => []
  | r :: rest =>
      (if title_sep u space prev then to_title u ttl r else r) :: title_from u space ttl r rest
  end.
Definition title (u : unicode) (space : N -> bool) (ttl : N -> N) (s : string) : string :=
  encode (title_from u space ttl 32 (runes s)).

(** *** GenerateTypes *)
Section T.
(** A [cuetsy.Config] and a node of the TypeScript syntax tree. *)
Context {C Node : Type}.

(** [TypeConfig], [gen.go:31-57]. *)
Record ts_config := mkTsc {
  tsc_cuetsy : option C;
  tsc_group : bool;
  tsc_root : string;
  tsc_alias : bool;
}.
Definition no_ts_config : ts_config := mkTsc None false "" false.

(** What is called: the name of the lineage; [cuetsy.GenerateAST] and
    [cuetsy.GenerateSingleAST] on the schema's [_#schema], the latter by name and
    whether an alias is asked for, with the declaration of the type and of the
    defaults (nil is [None]). They belong to cuetsy, another module. *)
Record ts_env := mkTse {
  ts_name : string;
  ts_children : C -> outcome (list Node);
  ts_single : string -> bool -> outcome (Node * option Node);
}.

(** [Export: true] and [IgnoreImportMapper], [gen.go:66-69]. *)
Variable default_cuetsy : C.
(** [strings.Title] *)
Variable ttl : string -> string.

(** [gen.go:62-73]: the configuration with its defaults. *)
Definition ts_defaults (e : ts_env) (c : ts_config) : ts_config :=
  mkTsc (Some (match tsc_cuetsy c with Some x => x | None => default_cuetsy end))
        (tsc_group c)
        (if String.eqb (tsc_root c) "" then ttl (ts_name e) else tsc_root c)
        (tsc_alias c).

(** [fmt.Errorf] with [%w]. *)
Definition ts_errorf {A} (msg : string) (o : outcome A) : outcome A :=
  match o with Err e => Err (wrap (msg ++ ": " ++ e_text e)%string e) | _ => o end.

(** [gen.go:61-101] [GenerateTypes]: the nodes of the file, and the configuration
    as left behind; the defaults are written to the caller's (lines 66 and 72). *)
Definition ts_generate (e : ts_env) (cfg : option ts_config) : outcome (list Node) * option ts_config :=
  let c := ts_defaults e (match cfg with Some c => c | None => no_ts_config end) in
  let cuetsy := match tsc_cuetsy c with Some x => x | None => default_cuetsy end in
  (nodes <- ts_errorf "generating TS for child elements of schema failed" (ts_children e cuetsy) ;;
   if negb (tsc_group c) then
     top <- ts_errorf "generating TS for schema root failed" (ts_single e (tsc_root c) (tsc_alias c)) ;;
     Ok (nodes ++ [fst top] ++ match snd top with Some d => [d] | None => [] end)
   else Ok nodes,
   option_map (fun _ => c) cfg).
End T.
