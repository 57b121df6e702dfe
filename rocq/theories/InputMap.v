(** Maps and lists on a command line
    ([internal/deepmap/oapi-codegen/pkg/util/inputmapping.go], cited as
    [inputmapping.go]). *)
From Verif Require Import Prelude Strings Version Util GenName.
Local Open Scope string_scope.
Local Open Scope list_scope.

Definition dquote : N := 34.
Definition comma : N := 44.
Definition colon : N := 58.

(** The loop of [inputmapping.go:60-77]: [q] is [inQuotes], [part] the part so
    far. *)
Fixpoint split_loop (sep : N) (q : bool) (part : list N) (rs : list N) : list (list N) :=
  match rs with
  | [] => [part]
  | c :: r =>
      let q' := if (c =? dquote)%N then negb q else q in
      if (c =? sep)%N && negb q' then part :: split_loop sep q' [] r
      else split_loop sep q' (part ++ [c]) r
  end.

(** [inputmapping.go:53-79]; parts are put together with [string(c)], so that
    bytes that are not UTF-8 come out as U+FFFD. *)
Definition splitString (s : string) (sep : N) : list string :=
  map encode (split_loop sep false [] (runes s)).

(** [strings.TrimLeft(s, "\"")] and [strings.TrimRight(s, "\"")]. *)
Definition is_quote (c : ascii) : bool := Ascii.eqb c """".
Fixpoint trim_lq (s : string) : string :=
  match s with
  | String c r => if is_quote c then trim_lq r else s
  | EmptyString => EmptyString
  end.
Fixpoint trim_rq (s : string) : string :=
  match s with
  | EmptyString => EmptyString
  | String c r =>
      match trim_rq r with
      | EmptyString => if is_quote c then EmptyString else String c EmptyString
      | r' => String c r'
      end
  end.

(** The loop of [inputmapping.go:15-27]; the map is a list of its entries. *)
Fixpoint parse_tuples (m : list (string * string)) (ts : list string) : outcome (list (string * string)) :=
  match ts with
  | [] => Ok m
  | t :: r =>
      match splitString t colon with
      | [k; v] => parse_tuples (put (trim_rq (trim_lq k)) (trim_rq (trim_lq v)) m) r
      | _ => Err (mkErr [] ("expected key:value, got :" ++ t)%string)
      end
  end.

(** [inputmapping.go:12-29] *)
Definition parseCommandlineMap (src : string) : outcome (list (string * string)) :=
  parse_tuples [] (splitString src comma).

(** [strings.TrimSpace] for ASCII space; simplified: other Unicode spaces are not
    trimmed here. *)
Fixpoint trim_ls (s : string) : string :=
  match s with
  | String c r => if is_space c then trim_ls r else s
  | EmptyString => EmptyString
  end.
Fixpoint trim_rs (s : string) : string :=
  match s with
  | EmptyString => EmptyString
  | String c r =>
      match trim_rs r with
      | EmptyString => if is_space c then EmptyString else String c EmptyString
      | r' => String c r'
      end
  end.
Definition trimSpace (s : string) : string := trim_rs (trim_ls s).

(** [inputmapping.go:34-48]; nil and the empty list are the same. *)
Definition parseCommandLineList (input : string) : list string :=
  let input := trimSpace input in
  if String.eqb input "" then []
  else filter (fun s => negb (String.eqb s "")) (map trimSpace (split_on "," input)).
