(** Comments of generated Go code ([encoding/gocode/decorators.go:48-100]), and the
    regular expressions that rewrite them. *)
From Verif Require Import Prelude Strings Version Util GenName Gocode.
Local Open Scope string_scope.
Local Open Scope list_scope.

(** *** Regular expressions

    A sequence of items. As in [regexp], of all matches that begin at a place the
    one counts that prefers, item by item, more for greedy and less for lazy
    repetition. Simplified: bytes where [regexp] has characters, which is the same
    for the expressions below, whose classes are ASCII or everything but newline. *)
Inductive item :=
| One (p : ascii -> bool)      (* [c], [[a-z]] *)
| Maybe (p : ascii -> bool)    (* [[a-z]?] *)
| Greedy (p : ascii -> bool)   (* [.*] *)
| Lazy (p : ascii -> bool).    (* [.*?] *)

(** The text that each item matches, and the rest. *)
Definition matched := (list string * string)%type.
Definition before_text (x : string) (m : option matched) : option matched :=
  match m with
  | Some (l, r) => Some (x :: l, r)
  | None => None
  end.
Definition extend (c : ascii) (m : option matched) : option matched :=
  match m with
  | Some (x :: l, r) => Some (String c x :: l, r)
  | _ => None
  end.
Definition either (a b : option matched) : option matched :=
  match a with
  | Some _ => a
  | None => b
  end.

Section Repeat.
Variable p : ascii -> bool.
Variable next : string -> option matched.
Fixpoint greedy (s : string) : option matched :=
  match s with
  | String c r => either (if p c then extend c (greedy r) else None) (before_text "" (next s))
  | EmptyString => before_text "" (next s)
  end.
Fixpoint lazily (s : string) : option matched :=
  match s with
  | String c r => either (before_text "" (next s)) (if p c then extend c (lazily r) else None)
  | EmptyString => before_text "" (next s)
  end.
End Repeat.

Fixpoint match_here (its : list item) (s : string) : option matched :=
  match its with
  | [] => Some ([], s)
  | One p :: its =>
      match s with
      | String c r => if p c then before_text (String c "") (match_here its r) else None
      | EmptyString => None
      end
  | Maybe p :: its =>
      either match s with
             | String c r => if p c then before_text (String c "") (match_here its r) else None
             | EmptyString => None
             end
             (before_text "" (match_here its s))
  | Greedy p :: its => greedy p (match_here its) s
  | Lazy p :: its => lazily p (match_here its) s
  end.

(** The leftmost match: what comes before, the texts, what comes after. *)
Fixpoint find_match (its : list item) (s : string) : option (string * list string * string) :=
  match match_here its s with
  | Some (l, r) => Some ("", l, r)
  | None =>
      match s with
      | EmptyString => None
      | String c r =>
          match find_match its r with
          | Some (a, l, z) => Some (String c a, l, z)
          | None => None
          end
      end
  end.

Definition is_char (c : ascii) : ascii -> bool := Ascii.eqb c.
Definition dot (c : ascii) : bool := negb (Ascii.eqb c nl).
Definition a_to_z (c : ascii) : bool := a_upper (N_of_ascii c).
Fixpoint literal (s : string) : list item :=
  match s with
  | EmptyString => []
  | String c r => One (is_char c) :: literal r
  end.

(** *** fixTODOComment *)

(** [decorators.go:69]. Without the groups it is [// .* TODO.*]. *)
Definition todo_regex : list item :=
  literal "// " ++ [Greedy dot] ++ literal " TODO" ++ [Greedy dot].

(** [todoRegex.ReplaceAllString(s, "$1 $3")], [n] times at most. The texts are
    those of [/], [/], the space, [.*], the five characters of [ TODO] and [.*]. *)
Fixpoint replace_todo (n : nat) (s : string) : string :=
  match n with
  | 0 => s
  | S n =>
      match find_match todo_regex s with
      | Some (a, [_; _; _; _; _; _; _; _; _; t], z) => (a ++ "// TODO" ++ t ++ replace_todo n z)%string
      | _ => s
      end
  end.

(** [decorators.go:68-73] *)
Definition fixTODOComment (comments : list string) : list string :=
  match comments with
  | [] => []
  | c :: r => replace_todo (String.length c) c :: r
  end.

(** *** removeGoFieldComment *)

(** [decorators.go:76]. Without the groups it is [// [A-Z].*? [A-Z]?.*? .*]. *)
Definition name_regex : list item :=
  literal "// " ++ [One a_to_z; Lazy dot; One (is_char " "); Maybe a_to_z; Lazy dot; One (is_char " "); Greedy dot].

Section Comments.
Variable u : unicode.
(** [strings.EqualFold] *)
Variable equal_fold : string -> string -> bool.

(** [decorators.go:75-90]. The texts are those of [/], [/], the space, and the
    items after it. [r[0]] panics on an empty slice. *)
Definition removeGoFieldComment (comments : list string) : outcome (list string) :=
  match comments with
  | [] => Ok []
  | c :: rest =>
      match find_match name_regex c with
      | Some (_, [_; _; _; a; b; _; x; y; _; z], _) =>
          let first := (a ++ b)%string in
          let second := (x ++ y)%string in
          let new := ("// " ++ second ++ " " ++ z)%string in
          if equal_fold second first then Ok (new :: rest)
          else match runes second with
               | [] => Panic
               | r :: _ => if negb (is_lower u r) then Ok (new :: rest) else Ok comments
               end
      | _ => Ok comments
      end
  end.

(** [decorators.go:92-100] *)
Definition isTypeSpec (d : decl) : outcome bool :=
  match d with
  | DFunc _ _ _ _ => Ok false
  | DGen _ [] => Panic
  | DGen _ (SType _ _ :: _) => Ok true
  | DGen _ _ => Ok false
  end.

Definition decl_comments (d : decl) : list string :=
  match d with DGen c _ => c | DFunc c _ _ _ => c end.
Definition with_comments (d : decl) (c : list string) : decl :=
  match d with DGen _ ss => DGen c ss | DFunc _ r n sig => DFunc c r n sig end.

(** [decorators.go:53-56], for one declaration, and [51-57] for a file. *)
Definition fix_decl (d : decl) : outcome decl :=
  is <- isTypeSpec d ;;
  c <- (if is then removeGoFieldComment (decl_comments d) else Ok (decl_comments d)) ;;
  Ok (with_comments d (fixTODOComment c)).
Definition fixTODOComments (f : list decl) : outcome (list decl) := omap fix_decl f.

(** [decorators.go:58-61]: the comments of a field with these names. (The fields
    of Gocode.v have no comments.) *)
Definition fix_field (names : list string) (comments : list string) : outcome (list string) :=
  match names with
  | [] => Ok comments
  | _ :: _ => removeGoFieldComment comments
  end.
End Comments.
