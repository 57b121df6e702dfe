(** Paths with parameters
    ([internal/deepmap/oapi-codegen/pkg/codegen/utils.go], cited as [utils.go], and
    [operations.go] beside it). *)
From Verif Require Import Prelude Strings Version GenName.
Local Open Scope string_scope.
Local Open Scope list_scope.

(** [utils.go:37]: the expression [{[.;?]?([^{}*]+)\*?}]. What it matches at the
    start of a string: the group is the longest run of characters it allows, and
    gives up its first one to the optional prefix if another one is left. *)
Definition in_class (c : ascii) : bool :=
  negb (Ascii.eqb c "{" || Ascii.eqb c "}" || Ascii.eqb c "*").
Fixpoint take_run (s : string) : string * string :=
  match s with
  | String c r => if in_class c then let '(b, t) := take_run r in (String c b, t) else ("", s)
  | EmptyString => ("", "")
  end.
Definition is_prefix_char (c : ascii) : bool := Ascii.eqb c "." || Ascii.eqb c ";" || Ascii.eqb c "?".
Definition group1 (run : string) : string :=
  match run with
  | String c (String _ _ as r) => if is_prefix_char c then r else run
  | _ => run
  end.
Definition match_at (s : string) : option (string * string) :=
  match s with
  | String c r =>
      if Ascii.eqb c "{" then
        let '(run, rest) := take_run r in
        match run with
        | EmptyString => None
        | _ =>
            let rest := match rest with String d r' => if Ascii.eqb d "*" then r' else rest | _ => rest end in
            match rest with
            | String d tail => if Ascii.eqb d "}" then Some (group1 run, tail) else None
            | EmptyString => None
            end
        end
      else None
  | EmptyString => None
  end.

(** All matches from left to right, with the characters between them. *)
Fixpoint pieces_loop (fuel : nat) (s : string) : list (ascii + string) :=
  match fuel with
  | O => []
  | S f =>
      match match_at s with
      | Some (n, tail) => inr n :: pieces_loop f tail
      | None => match s with String c r => inl c :: pieces_loop f r | EmptyString => [] end
      end
  end.
Definition pieces (s : string) : list (ascii + string) := pieces_loop (String.length s) s.

Definition replace_all (f : string -> string) (uri : string) : string :=
  String.concat "" (map (fun p => match p with inl c => String c "" | inr n => f n end) (pieces uri)).

(** [utils.go:396-398], [412-414] and [444-446] *)
Definition swaggerUriToEchoUri (uri : string) : string := replace_all (fun n => (":" ++ n)%string) uri.
Definition swaggerUriToFiberUri (uri : string) : string := replace_all (fun n => (":" ++ n)%string) uri.
Definition swaggerUriToGinUri (uri : string) : string := replace_all (fun n => (":" ++ n)%string) uri.
(** [utils.go:428-430] and [460-462] *)
Definition swaggerUriToChiUri (uri : string) : string := replace_all (fun n => ("{" ++ n ++ "}")%string) uri.
Definition swaggerUriToGorillaUri (uri : string) : string := replace_all (fun n => ("{" ++ n ++ "}")%string) uri.
(** [utils.go:476-478] *)
Definition replacePathParamsWithStr (uri : string) : string := replace_all (fun _ => "%s") uri.
(** [utils.go:466-473] *)
Definition orderedParamsFromUri (uri : string) : list string :=
  flat_map (fun p => match p with inl _ => [] | inr n => [n] end) (pieces uri).

(** A parameter ([operations.go], [ParameterDefinition]): its name, where it is,
    and everything else, which the code below leaves alone. *)
Record param_def (A : Type) := mkParam { pname : string; pin : string; pdef : A }.
Arguments mkParam {A}.
Arguments pname {A}.
Arguments pin {A}.
Arguments pdef {A}.

(** [operations.go:143-150] *)
Definition findByName {A} (ps : list (param_def A)) (name : string) : option (param_def A) :=
  find (fun p => String.eqb (pname p) name) ps.

(** [operations.go:475-483] *)
Definition filterByType {A} (ps : list (param_def A)) (where_ : string) : list (param_def A) :=
  filter (fun p => String.eqb (pin p) where_) ps.

(** The loop of [utils.go:489-496] *)
Fixpoint sort_loop {A} (path : string) (ps : list (param_def A)) (names : list string) : outcome (list (param_def A)) :=
  match names with
  | [] => Ok []
  | n :: r =>
      match findByName ps n with
      | None => Err (mkErr [] ("path '" ++ path ++ "' refers to parameter '" ++ n ++ "', which doesn't exist in specification")%string)
      | Some p => out <- sort_loop path ps r ;; Ok (p :: out)
      end
  end.

(** [utils.go:481-498] *)
Definition sortParamsByPath {A} (path : string) (ps : list (param_def A)) : outcome (list (param_def A)) :=
  let names := orderedParamsFromUri path in
  if Nat.eqb (length names) (length ps) then sort_loop path ps names
  else Err (mkErr [] ("path '" ++ path ++ "' has " ++ itoa (length names) ++ " positional parameters, but spec has " ++
                      itoa (length ps) ++ " declared")%string).

(** The path parameters of an operation ([operations.go:527-536]): those of its
    path and its own. *)
Definition pathParams {A} (path : string) (global local : list (param_def A)) : outcome (list (param_def A)) :=
  sortParamsByPath path (filterByType (global ++ local) "path").

(** [url.QueryEscape] of Go's [net/url]. *)
Definition unreserved (c : ascii) : bool :=
  let n := N_of_ascii c in
  ((48 <=? n) && (n <=? 57) || (65 <=? n) && (n <=? 90) || (97 <=? n) && (n <=? 122))%N
  || Ascii.eqb c "-" || Ascii.eqb c "_" || Ascii.eqb c "." || Ascii.eqb c "~".
Definition hex_digit (n : N) : ascii := if (n <? 10)%N then ascii_of_N (48 + n) else ascii_of_N (55 + n).
Definition escape_char (c : ascii) : string :=
  if unreserved c then String c ""
  else if Ascii.eqb c " " then "+"
  else String "%" (String (hex_digit (N_of_ascii c / 16)) (String (hex_digit (N_of_ascii c mod 16)) "")).
Fixpoint queryEscape (s : string) : string :=
  match s with
  | EmptyString => EmptyString
  | String c r => (escape_char c ++ queryEscape r)%string
  end.

(** [utils.go:735-745] *)
Definition escapePathElements (path : string) : string :=
  join "/" (map (fun e => if has_prefix e "{" && has_suffix e "}" then e else queryEscape e) (split_on "/" path)).
