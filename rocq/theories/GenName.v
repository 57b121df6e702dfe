(** Names in generated Go code
    ([internal/deepmap/oapi-codegen/pkg/codegen/utils.go], cited as [utils.go]). *)
From Verif Require Import Prelude Strings Version Util.
Local Open Scope string_scope.
Local Open Scope list_scope.

(** *** Runes *)

(** The tables of Go's [unicode] package for the runes that are not ASCII; a
    standard-library package. What they say of ASCII is fixed below. *)
Record unicode := {
  u_upper : N -> bool;    (* unicode.IsUpper *)
  u_lower : N -> bool;    (* unicode.IsLower *)
  u_digit : N -> bool;    (* unicode.IsDigit *)
  u_letter : N -> bool;   (* unicode.IsLetter *)
  u_number : N -> bool;   (* unicode.IsNumber *)
  u_to_upper : N -> N;    (* unicode.ToUpper *)
}.

Definition within (lo hi r : N) : bool := (lo <=? r)%N && (r <=? hi)%N.
Definition a_upper (r : N) : bool := within 65 90 r.
Definition a_lower (r : N) : bool := within 97 122 r.
Definition a_digit (r : N) : bool := within 48 57 r.

Definition is_upper (u : unicode) (r : N) : bool := if (r <? 128)%N then a_upper r else u_upper u r.
Definition is_lower (u : unicode) (r : N) : bool := if (r <? 128)%N then a_lower r else u_lower u r.
Definition is_digit (u : unicode) (r : N) : bool := if (r <? 128)%N then a_digit r else u_digit u r.
Definition is_letter (u : unicode) (r : N) : bool :=
  if (r <? 128)%N then a_upper r || a_lower r else u_letter u r.
Definition is_number (u : unicode) (r : N) : bool := if (r <? 128)%N then a_digit r else u_number u r.
Definition to_upper (u : unicode) (r : N) : N :=
  if (r <? 128)%N then (if a_lower r then (r - 32)%N else r) else u_to_upper u r.

(** [string(r)]: UTF-8, U+FFFD for what is not a character. *)
Definition enc (x : N) : ascii := ascii_of_N x.
Definition encode_rune (r : N) : string :=
  if (r <? 128)%N then String (enc r) ""
  else if (r <? 2048)%N then String (enc (192 + r / 64)) (String (enc (128 + r mod 64)) "")
  else if within 55296 57343 r || (1114111 <? r)%N
  then String (enc 239) (String (enc 191) (String (enc 189) ""))
  else if (r <? 65536)%N
  then String (enc (224 + r / 4096)) (String (enc (128 + (r / 64) mod 64)) (String (enc (128 + r mod 64)) ""))
  else String (enc (240 + r / 262144)) (String (enc (128 + (r / 4096) mod 64))
         (String (enc (128 + (r / 64) mod 64)) (String (enc (128 + r mod 64)) ""))).
Fixpoint encode (rs : list N) : string :=
  match rs with
  | [] => ""
  | r :: rest => (encode_rune r ++ encode rest)%string
  end.

(** *** Camel case *)

(** [strings.Trim(s, " ")]. *)
Fixpoint trim_left (s : string) : string :=
  match s with
  | String c r => if Ascii.eqb c " " then trim_left r else s
  | EmptyString => EmptyString
  end.
Fixpoint trim_right (s : string) : string :=
  match s with
  | String c r => match trim_right r with
                  | EmptyString => if Ascii.eqb c " " then "" else String c ""
                  | t => String c t
                  end
  | EmptyString => EmptyString
  end.
Definition trim_spaces (s : string) : string := trim_right (trim_left s).

Definition rune (c : ascii) : N := N_of_ascii c.

(** [utils.go:89-93]: [separatorSet]. *)
Definition separators : list N := runes "-#@!$&=.+:;_~ (){}[]".
Definition is_sep (r : N) : bool := existsb (N.eqb r) separators.

(** The loop of [utils.go:145-160]. *)
Fixpoint camel (u : unicode) (cap : bool) (rs : list N) : list N :=
  match rs with
  | [] => []
  | v :: rest =>
      (if is_upper u v then [v] else [])
      ++ (if is_digit u v then [v] else [])
      ++ (if is_lower u v then [if cap then to_upper u v else v] else [])
      ++ camel u (is_sep v) rest
  end.

(** [utils.go:140-162] *)
Definition toCamelCase (u : unicode) (s : string) : string :=
  encode (camel u true (runes (trim_spaces s))).

(** *** Type names *)

(** The cases of the [switch] of [utils.go:612-648] that extend the prefix. *)
Definition prefix_word (r : N) : option string :=
  if (r =? rune "-")%N then Some "Minus"
  else if (r =? rune "+")%N then Some "Plus"
  else if (r =? rune "&")%N then Some "And"
  else if (r =? rune "|")%N then Some "Or"
  else if (r =? rune "~")%N then Some "Tilde"
  else if (r =? rune "=")%N then Some "Equal"
  else if (r =? rune "#")%N then Some "Hash"
  else if (r =? rune ".")%N then Some "Dot"
  else if (r =? rune "*")%N then Some "Asterisk"
  else if (r =? rune "^")%N then Some "Caret"
  else if (r =? rune "%")%N then Some "Percent"
  else None.

(** The loop of [utils.go:611-648]; [len1] is [len(name) == 1]. *)
Fixpoint prefix_loop (u : unicode) (len1 : bool) (prefix : string) (rs : list N) : string :=
  match rs with
  | [] => prefix
  | r :: rest =>
      if (r =? rune "$")%N then
        if len1 then "DollarSign" else prefix_loop u len1 prefix rest
      else match prefix_word r with
           | Some w => prefix_loop u len1 (prefix ++ w)%string rest
           | None => if String.eqb prefix "" && is_digit u r then "N" else prefix
           end
  end.

(** [utils.go:607-651] *)
Definition typeNamePrefix (u : unicode) (name : string) : string :=
  if String.eqb name "" then "Empty"
  else prefix_loop u (Nat.eqb (String.length name) 1) "" (runes name).

(** [utils.go:655-657] *)
Definition schemaNameToTypeName (u : unicode) (name : string) : string :=
  (typeNamePrefix u name ++ toCamelCase u name)%string.

(** [utils.go:678-683]. In Go the elements of the slice are replaced by their
    camel case too; see GenType.v. *)
Definition pathToTypeName (u : unicode) (path : list string) : string :=
  String.concat "_" (map (toCamelCase u) path).

(** *** Identifiers *)

(** [token.IsKeyword]. *)
Definition keywords : list string :=
  ["break"; "case"; "chan"; "const"; "continue"; "default"; "defer"; "else"; "fallthrough";
   "for"; "func"; "go"; "goto"; "if"; "import"; "interface"; "map"; "package"; "range";
   "return"; "select"; "struct"; "switch"; "type"; "var"].
Definition isGoKeyword (s : string) : bool := existsb (String.eqb s) keywords.

(** [utils.go:39-87] *)
Definition predeclared : list string :=
  ["bool"; "byte"; "complex64"; "complex128"; "error"; "float32"; "float64"; "int"; "int8";
   "int16"; "int32"; "int64"; "rune"; "string"; "uint"; "uint8"; "uint16"; "uint32"; "uint64";
   "uintptr"; "true"; "false"; "iota"; "nil"; "append"; "cap"; "close"; "complex"; "copy";
   "delete"; "imag"; "len"; "make"; "new"; "panic"; "print"; "println"; "real"; "recover"].
(** [utils.go:509-512] *)
Definition isPredeclared (s : string) : bool := existsb (String.eqb s) predeclared.

(** [utils.go:528-534]; [first] is [index == 0]. *)
Definition isValidRuneForGoID (u : unicode) (first : bool) (r : N) : bool :=
  if first && is_number u r then false
  else is_letter u r || (r =? rune "_")%N || is_number u r.

(** [utils.go:518-526] *)
Fixpoint valid_runes (u : unicode) (first : bool) (rs : list N) : bool :=
  match rs with
  | [] => true
  | r :: rest => isValidRuneForGoID u first r && valid_runes u false rest
  end.
Definition isGoIdentity (u : unicode) (s : string) : bool :=
  valid_runes u true (runes s) && isGoKeyword s.

(** [utils.go:538-544] *)
Definition isValidGoIdentity (u : unicode) (s : string) : bool :=
  if isGoIdentity u s then false else negb (isPredeclared s).

(** The loop of [utils.go:551-557]. *)
Fixpoint sanitize_runes (u : unicode) (first : bool) (rs : list N) : list N :=
  match rs with
  | [] => []
  | r :: rest => (if isValidRuneForGoID u first r then r else rune "_") :: sanitize_runes u false rest
  end.

(** [utils.go:548-570] *)
Definition sanitizeGoIdentity (u : unicode) (s : string) : outcome string :=
  let s1 := encode (sanitize_runes u true (runes s)) in
  let s2 := if isGoKeyword s1 || isPredeclared s1 then ("_" ++ s1)%string else s1 in
  if isValidGoIdentity u s2 then Ok s2 else Panic.

(** *** Enums *)

(** Maps from strings: the first entry of a key counts. *)
Fixpoint lookup {A} (k : string) (m : list (string * A)) : option A :=
  match m with
  | [] => None
  | (k', v) :: r => if String.eqb k k' then Some v else lookup k r
  end.
Fixpoint put {A} (k : string) (v : A) (m : list (string * A)) : list (string * A) :=
  match m with
  | [] => [(k, v)]
  | (k', w) :: r => if String.eqb k k' then (k, v) :: r else (k', w) :: put k v r
  end.

(** [strconv.Itoa] of a count. *)
Definition itoa (n : nat) : string := show_N (N.of_nat n).

(** The first loop of [utils.go:578-587]: name and value of every enum value
    whose name was not seen before. *)
Fixpoint dedup (seen : list string) (names values : list string) : list (string * string) :=
  match values with
  | [] => []
  | v :: vs =>
      let n := match names with n :: _ => n | [] => v end in
      (if existsb (String.eqb n) seen then [] else [(n, v)])
      ++ dedup (n :: seen) (tl names) vs
  end.

(** The second loop of [utils.go:592-602]; [cnt] is [dupCheck]. *)
Fixpoint sanitize_loop (u : unicode) (cnt : list (string * nat)) (m : list (string * string))
    (l : list (string * string)) : outcome (list (string * string)) :=
  match l with
  | [] => Ok m
  | (n, v) :: r =>
      s <- sanitizeGoIdentity u (schemaNameToTypeName u n) ;;
      match lookup s cnt with
      | None => sanitize_loop u (put s 1 cnt) (put s v m) r
      | Some c => sanitize_loop u (put s (S c) cnt) (put (s ++ itoa c)%string v m) r
      end
  end.

(** [utils.go:574-605] *)
Definition sanitizeEnumNames (u : unicode) (names values : list string)
  : outcome (list (string * string)) :=
  sanitize_loop u [] [] (dedup [] names values).

(** *** Comments *)

(** [strings.TrimSpace(s) == ""] for ASCII space; a string of other Unicode
    spaces only is not empty here. *)
Definition is_space (c : ascii) : bool :=
  let n := N_of_ascii c in within 9 13 n || (n =? 32)%N.
Fixpoint blank (s : string) : bool :=
  match s with
  | EmptyString => true
  | String c r => is_space c && blank r
  end.

Definition nl : ascii := ascii_of_nat 10.
Definition cr : ascii := ascii_of_nat 13.
Definition newline : string := String nl "".

(** [strings.Replace(in, "\r\n", "\n", -1)] *)
Fixpoint crlf (s : string) : string :=
  match s with
  | EmptyString => EmptyString
  | String c r =>
      match r with
      | String d r' => if Ascii.eqb c cr && Ascii.eqb d nl then String nl (crlf r') else String c (crlf r)
      | EmptyString => s
      end
  end.
(** [strings.Replace(in, "\r", "\n", -1)] *)
Fixpoint cr_nl (s : string) : string :=
  match s with
  | EmptyString => EmptyString
  | String c r => String (if Ascii.eqb c cr then nl else c) (cr_nl r)
  end.

(** [strings.TrimSuffix(s, p)] *)
Fixpoint trim_suffix (s p : string) : string :=
  if String.eqb s p then ""
  else match s with
       | EmptyString => EmptyString
       | String c r => String c (trim_suffix r p)
       end.

(** [utils.go:707-731] *)
Definition stringToGoCommentWithPrefix (text prefix : string) : string :=
  if blank text then ""
  else
    let lines := split_str (cr_nl (crlf text)) newline in
    let first := if String.eqb prefix "" then "//" else ("// " ++ prefix)%string in
    let out := match lines with
               | [] => []
               | l :: ls => (first ++ " " ++ l)%string :: map (fun l => ("// " ++ l)%string) ls
               end in
    trim_suffix (String.concat newline out) (newline ++ "// ")%string.

(** [utils.go:687-689], [694-696] and [698-705]. *)
Definition stringToGoComment (text : string) : string := stringToGoCommentWithPrefix text "".
Definition stringWithTypeNameToGoComment (text name : string) : string :=
  stringToGoCommentWithPrefix text name.
Definition deprecationComment (reason : string) : string :=
  stringToGoCommentWithPrefix
    ("Deprecated:" ++ (if String.eqb reason "" then "" else " " ++ reason))%string "".
